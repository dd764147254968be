From Verif Require Import Base BaseFacts Map Model_Containers Proofs_Containers Proofs_Containers2.
Local Open Scope Z_scope.

(* ---- hlists *)
Lemma hl_row p L i h l : prep p L -> 0 <= i < zlen L -> znth L i = h :: l ->
  hl_head p i = Ok h /\ hl_list p i = Ok l /\ hl_size_of p i = Ok (zlen l) /\
  forall j, 0 <= j < zlen l -> hl_get p i j = Ok (nth (Z.to_nat j) l 0).
Proof.
  intros P Hi E. pose proof (prep_size _ _ P) as Sz. destruct P as (T & Ht & H). destruct (H i Hi) as (o & A & B & C & D & F). rewrite E in *.
  assert (Zl : zlen (h :: l) = zlen l + 1) by (unfold zlen; cbn [length]; lia). rewrite Zl in *. pose proof (zlen_nonneg l).
  assert (G1 := it_get_ok _ _ _ i 1 _ T B). assert (G0 := holds_get _ _ _ _ A T).
  unfold hl_head, hl_list, hl_size_of, hl_get. rewrite Sz, G0, G1. replace (i <? _) with true by lia. cbn [assrt bind].
  replace (zlen l + 1 - 1) with (zlen l) by lia.
  split; [apply bget_cell; rewrite <- (Z.add_0_r o); apply (F 0); lia|].
  assert (F' : forall k, 0 <= k < zlen l -> cell (amem p) (o + 1 + k) = Some (nth (Z.to_nat k) l 0)).
  { intros k Hk. rewrite <- Z.add_assoc, F by lia. replace (Z.to_nat (1 + k)) with (S (Z.to_nat k)) by lia. reflexivity. }
  split; [replace (_ <? 0) with false by lia; unfold zlen; rewrite Nat2Z.id; now apply bread_ok|]. split; [reflexivity|].
  intros j Hj. replace (j <? _) with true by lia. cbn [assrt]. apply bget_cell. replace (o + j + 1) with (o + 1 + j) by lia. auto.
Qed.
Definition hrow (q : Z * list Z) : list Z := fst q :: snd q.
Lemma hl_pushes_ok qs : forall p L, prep p L -> exists p', foldM (fun q p => hl_push (fst q) (snd q) p) qs p = Ok p' /\ prep p' (L ++ map hrow qs).
Proof.
  induction qs as [|q qs IH]; intros p L P; [exists p; rewrite app_nil_r; auto|]. cbn [foldM]. unfold hl_push at 1.
  destruct (prep_push (fst q :: snd q) p L P) as (p1 & -> & P1 & _). cbn [bind]. destruct (IH _ _ P1) as (p' & -> & P'). exists p'. split; [reflexivity|].
  rewrite <- app_assoc in P'. exact P'.
Qed.

Lemma zrange_split n done i rest : zrange n = done ++ i :: rest -> i = zlen done /\ 0 <= i < n.
Proof.
  intro E. assert (Hi : In i (zrange n)) by (rewrite E; apply in_or_app; right; now left). apply in_zrange in Hi.
  assert (L := zrange_length n). rewrite E, app_length in L. cbn in L.
  assert (Hd : 0 <= zlen done < n) by (unfold zlen; lia). pose proof (zrange_nth n (zlen done) Hd) as N. unfold zlen in N. rewrite Nat2Z.id, E in N.
  rewrite nth_error_app2, Nat.sub_diag in N by lia. cbn in N. injection N as ->. unfold zlen. lia.
Qed.
Lemma zget_nth {A} (l : list A) i d : 0 <= i < zlen l -> zget l i = Ok (nth (Z.to_nat i) l d).
Proof.
  intro H. unfold zget, vget, zlen in *. replace (i <? 0) with false by lia. destruct (nth_error l (Z.to_nat i)) eqn:E.
  - now rewrite (nth_error_nth _ _ _ E).
  - apply nth_error_None in E. lia.
Qed.
(* start of row i when row j has room for one head and lens_j elements *)
Definition offs (lens : list Z) (i : Z) : Z := fold_right Z.add 0 (firstn (Z.to_nat i) lens) + i.
Lemma offs_succ lens i : 0 <= i < zlen lens -> offs lens (i + 1) = offs lens i + nth (Z.to_nat i) lens 0 + 1.
Proof.
  intro H. unfold offs, zlen in *. replace (Z.to_nat (i + 1)) with (S (Z.to_nat i)) by lia.
  rewrite <- (firstn_skipn (Z.to_nat i) (firstn (S (Z.to_nat i)) lens)).
  rewrite firstn_firstn. replace (Nat.min (Z.to_nat i) (S (Z.to_nat i))) with (Z.to_nat i) by lia.
  assert (E : skipn (Z.to_nat i) (firstn (S (Z.to_nat i)) lens) = [nth (Z.to_nat i) lens 0]).
  { assert (Hk : (Z.to_nat i < length lens)%nat) by lia. clear H. revert Hk. generalize (Z.to_nat i) as k. induction lens as [|x l IH]; intros k Hk; [cbn in Hk; lia|].
    destruct k; cbn; [reflexivity|]. cbn in Hk. rewrite <- (IH k) by lia. reflexivity. }
  rewrite E. assert (G : forall l m, fold_right Z.add 0 (l ++ m) = fold_right Z.add 0 l + fold_right Z.add 0 m) by (induction l; cbn; intros; [lia|rewrite IHl; lia]).
  rewrite G. cbn. lia.
Qed.
Lemma offs_0 lens : offs lens 0 = 0. Proof. reflexivity. Qed.
Lemma offs_mono lens : Forall (fun x => 0 <= x) lens -> forall i j, 0 <= i <= j -> j <= zlen lens -> offs lens i + (j - i) <= offs lens j.
Proof.
  intros F i j Hij. replace j with (i + Z.of_nat (Z.to_nat (j - i))) by lia. generalize (Z.to_nat (j - i)) as k. induction k as [|k IH]; intro Hj; [rewrite Z.add_0_r; lia|].
  replace (i + Z.of_nat (S k)) with (i + Z.of_nat k + 1) in * by lia. rewrite offs_succ by lia. specialize (IH ltac:(lia)).
  assert (0 <= nth (Z.to_nat (i + Z.of_nat k)) lens 0); [|lia].
  rewrite Forall_forall in F. apply F. apply nth_In. unfold zlen in Hj. lia.
Qed.

Definition hbase (p : apool) (lens : list Z) : Prop :=
  tab (adir p) 2 (zlen lens) /\ atail p = offs lens (zlen lens) /\ blen (amem p) = offs lens (zlen lens) /\
  forall i, 0 <= i < zlen lens -> cell (ibuf (adir p)) (i * 2) = Some (offs lens i).
Lemma hl_make_ok full heads lens : Forall (fun x => 0 <= x) lens -> length heads = length lens ->
  exists p, hl_make full heads lens = Ok p /\ hbase p lens /\
    forall i, 0 <= i < zlen lens -> cell (ibuf (adir p)) (i * 2 + 1) = Some (if full then nth (Z.to_nat i) lens 0 + 1 else 1) /\
      cell (amem p) (offs lens i) = Some (nth (Z.to_nat i) heads 0).
Proof.
  intros F Hl. unfold hl_make. rewrite Hl, Z.eqb_refl. cbn [assrt]. fold (zlen lens).
  assert (Et : fold_right Z.add 0 lens + zlen lens = offs lens (zlen lens)) by (unfold offs, zlen; rewrite Nat2Z.id, firstn_all; reflexivity).
  rewrite Et. pose proof (zlen_nonneg lens) as Hn. set (n := zlen lens) in *.
  assert (Ht : 0 <= offs lens n) by (pose proof (offs_mono lens F 0 n ltac:(lia) ltac:(lia)); rewrite offs_0 in *; lia).
  unfold forZ.
  match goal with |- context [foldM ?g _ _] => set (f := g) end.
  destruct (foldM_inv (fun done p => tab (adir p) 2 n /\ atail p = offs lens (zlen done) /\ blen (amem p) = offs lens n /\
     forall i, In i done -> 0 <= i < zlen done -> cell (ibuf (adir p)) (i * 2) = Some (offs lens i) /\
       cell (ibuf (adir p)) (i * 2 + 1) = Some (if full then nth (Z.to_nat i) lens 0 + 1 else 1) /\ cell (amem p) (offs lens i) = Some (nth (Z.to_nat i) heads 0))
     f (zrange n) (ap_new_reserve n (offs lens n))) as (p & Ep & T & A & B & C).
  - cbn. split; [apply tab_new; lia|]. split; [reflexivity|]. split; [apply blen_new; lia|]. intros i [].
  - intros done i rest p El (T & A & B & C). destruct (zrange_split _ _ _ _ El) as [Ei Hi].
    unfold f. rewrite (zget_nth heads i 0) by (unfold zlen in *; lia). cbn [bind]. rewrite (zget_nth lens i 0) by (fold n; lia). cbn [bind].
    destruct (it_set_ok _ _ _ i 0 (atail p) T) as (d1 & -> & T1 & _ & D1); [lia|lia|]. cbn [bind].
    destruct (it_set_ok _ _ _ i 1 (if full then nth (Z.to_nat i) lens 0 + 1 else 1) T1) as (d2 & -> & T2 & _ & D2); [lia|lia|]. cbn [bind].
    assert (Hsz : 0 <= atail p < blen (amem p)).
    { rewrite A, B, <- Ei. pose proof (offs_mono lens F 0 i ltac:(lia) ltac:(lia)). pose proof (offs_mono lens F i n ltac:(lia) ltac:(lia)). rewrite offs_0 in *. lia. }
    destruct (bput_ok (amem p) (atail p) (nth (Z.to_nat i) heads 0) Hsz) as (b & -> & Lb & Cb). cbn [bind]. eexists. split; [reflexivity|].
    cbn [adir amem atail]. split; [assumption|]. rewrite zlen_app. change (zlen [i]) with 1. rewrite <- Ei in *. split; [rewrite offs_succ by (fold n; lia); lia|]. split; [lia|].
    intros j Hj Hjr. rewrite !D2, !D1, Cb. apply in_app_or in Hj as [Hj|[<-|[]]].
    + assert (j <> i). { pose proof (zrange_nodup n) as N. rewrite El in N. apply NoDup_remove_2 in N. intros ->. apply N. apply in_or_app; auto. }
      destruct (C j Hj ltac:(lia)) as (C1 & C2 & C3).
      replace (j * 2 =? i * 2 + 1) with false by lia. replace (j * 2 =? i * 2 + 0) with false by lia. replace (j * 2 + 1 =? i * 2 + 1) with false by lia.
      replace (j * 2 + 1 =? i * 2 + 0) with false by lia. rewrite C1, C2. split; [reflexivity|]. split; [reflexivity|].
      pose proof (offs_mono lens F j i ltac:(lia) ltac:(lia)). rewrite A. replace (offs lens j =? offs lens i) with false by lia. exact C3.
    + replace (i * 2 =? i * 2 + 1) with false by lia. replace (i * 2 =? i * 2 + 0) with true by lia. rewrite A, !Z.eqb_refl. auto.
  - exists p. split; [exact Ep|]. unfold hbase. fold n. assert (Zd : zlen (zrange n) = n) by (unfold zlen; rewrite zrange_length; lia). rewrite Zd in *.
    split; [split; [exact T|split; [exact A|split; [exact B|]]]|]; intros i Hi; destruct (C i ltac:(now apply in_zrange) Hi) as (C1 & C2 & C3); auto.
Qed.

(* rows (head first) stored with fixed room *)
Definition hrep (p : apool) (lens : list Z) (rows : list (list Z)) : Prop :=
  Forall (fun x => 0 <= x) lens /\ zlen rows = zlen lens /\ hbase p lens /\
  forall i, 0 <= i < zlen lens -> cell (ibuf (adir p)) (i * 2 + 1) = Some (zlen (znth rows i)) /\
    1 <= zlen (znth rows i) <= nth (Z.to_nat i) lens 0 + 1 /\
    forall k, 0 <= k < zlen (znth rows i) -> cell (amem p) (offs lens i + k) = Some (nth (Z.to_nat k) (znth rows i) 0).
Lemma hrep_prep p lens rows : hrep p lens rows -> prep p rows.
Proof.
  intros (F & Hz & (T & A & B & C) & H). unfold prep. rewrite Hz. pose proof (zlen_nonneg lens).
  pose proof (offs_mono lens F 0 (zlen lens) ltac:(lia) ltac:(lia)). rewrite offs_0 in *. split; [assumption|]. split; [lia|]. intros i Hi.
  destruct (H i Hi) as (U1 & U2 & U3). exists (offs lens i). rewrite (C i Hi). split; [reflexivity|]. split; [assumption|].
  pose proof (offs_mono lens F 0 i ltac:(lia) ltac:(lia)). rewrite offs_0 in *. split; [lia|]. split; [|assumption].
  pose proof (offs_mono lens F (i + 1) (zlen lens) ltac:(lia) ltac:(lia)). rewrite offs_succ in * by assumption. lia.
Qed.
Lemma hl_make_hrep heads lens : Forall (fun x => 0 <= x) lens -> length heads = length lens ->
  exists p, hl_make false heads lens = Ok p /\ hrep p lens (map (fun h => [h]) heads).
Proof.
  intros F Hl. destruct (hl_make_ok false heads lens F Hl) as (p & E & B & C). exists p. split; [exact E|].
  split; [assumption|]. split; [unfold zlen; rewrite map_length; lia|]. split; [assumption|]. intros i Hi. destruct (C i Hi) as [C1 C2].
  assert (En : znth (map (fun h => [h]) heads) i = [nth (Z.to_nat i) heads 0]).
  { unfold znth. unfold zlen in Hi. rewrite (nth_indep _ [] [0]) by (rewrite map_length; lia). now rewrite (map_nth (fun h => [h])). }
  rewrite En. change (zlen [nth (Z.to_nat i) heads 0]) with 1. split; [assumption|].
  assert (0 <= nth (Z.to_nat i) lens 0) by (rewrite Forall_forall in F; apply F, nth_In; unfold zlen in Hi; lia). split; [lia|].
  intros k Hk. replace k with 0 by lia. now rewrite Z.add_0_r.
Qed.
Lemma max_size_ok p lens i : hbase p lens -> 0 <= i < zlen lens -> ap_max_size_of p i = Ok (nth (Z.to_nat i) lens 0 + 1).
Proof.
  intros (T & A & B & C) Hi. unfold ap_max_size_of, ap_size. assert (T0 := T). destruct T0 as (_ & _ & -> & _). replace (i <? zlen lens) with true by lia. cbn [assrt].
  rewrite (holds_get _ _ _ _ (C i Hi) T). destruct (i <? zlen lens - 1) eqn:E.
  - rewrite (holds_get p (i + 1) (offs lens (i + 1)) _ (C (i + 1) ltac:(lia)) T). cbn. rewrite offs_succ by lia. f_equal. lia.
  - cbn. rewrite A. replace (zlen lens) with (i + 1) by lia. rewrite offs_succ by lia. f_equal. lia.
Qed.
Definition upd_row (i : Z) (v : Z) (rows : list (list Z)) : list (list Z) := set_at (Z.to_nat i) (znth rows i ++ [v]) rows.
Lemma znth_upd i v rows j : 0 <= i < zlen rows -> 0 <= j -> znth (upd_row i v rows) j = if j =? i then znth rows i ++ [v] else znth rows j.
Proof.
  intros Hi Hj. unfold znth, upd_row. unfold zlen in Hi. rewrite nth_set_at by lia. destruct (j =? i) eqn:E.
  - replace (Z.to_nat j =? Z.to_nat i)%nat with true by (symmetry; apply Nat.eqb_eq; lia). reflexivity.
  - replace (Z.to_nat j =? Z.to_nat i)%nat with false by (symmetry; apply Nat.eqb_neq; lia). reflexivity.
Qed.
Lemma hl_push_at_ok p lens rows i v : hrep p lens rows -> 0 <= i < zlen lens ->
  if zlen (znth rows i) <=? nth (Z.to_nat i) lens 0
  then exists p', hl_push_at i v p = Ok p' /\ hrep p' lens (upd_row i v rows)
  else hl_push_at i v p = Throw.
Proof.
  intros R Hi. assert (P := hrep_prep _ _ _ R). assert (Sz := prep_size _ _ P). assert (R0 := R). destruct R as (F & Hz & Hb & H).
  assert (So := prep_size_of p rows i P ltac:(lia)). assert (Mo := max_size_ok p lens i Hb Hi). destruct (H i Hi) as (H1 & H2 & H3).
  unfold hl_push_at, ap_push_at. rewrite Sz, Hz, So, Mo. replace (i <? zlen lens) with true by lia. cbn [assrt bind].
  destruct (zlen (znth rows i) <=? nth (Z.to_nat i) lens 0) eqn:E.
  2:{ replace (_ <? _) with false by lia. reflexivity. }
  replace (_ <? _) with true by lia. cbn [assrt]. assert (Hb0 := Hb). destruct Hb as (T & A & B & C).
  rewrite (holds_get _ _ _ _ (C i Hi) T). cbn [bind]. rewrite (it_get_ok _ _ _ i 1 _ T H1). cbn [bind].
  pose proof (offs_mono lens F 0 i ltac:(lia) ltac:(lia)). rewrite offs_0 in *.
  pose proof (offs_mono lens F (i + 1) (zlen lens) ltac:(lia) ltac:(lia)) as Hm. rewrite offs_succ in Hm by assumption.
  destruct (bput_ok (amem p) (offs lens i + zlen (znth rows i)) v) as (b & -> & Lb & Cb); [lia|]. cbn [bind].
  destruct (it_set_ok _ _ _ i 1 (zlen (znth rows i) + 1) T) as (d & -> & Td & _ & Dd); [lia|lia|]. cbn [bind]. eexists. split; [reflexivity|].
  split; [assumption|]. split; [unfold upd_row, zlen; rewrite set_at_length; exact Hz|]. split.
  - split; [assumption|]. split; [assumption|]. split; [cbn; lia|]. intros j Hj. cbn [adir]. rewrite Dd. replace (j * 2 =? _) with false by lia. auto.
  - intros j Hj. cbn [adir amem]. rewrite Dd. rewrite znth_upd by lia. destruct (j =? i) eqn:Ej.
    + assert (j = i) by lia. subst j. rewrite Z.eqb_refl, zlen_app. change (zlen [v]) with 1. split; [reflexivity|]. split; [lia|].
      intros k Hk. rewrite Cb. destruct (Z.eq_dec k (zlen (znth rows i))) as [->|].
      * rewrite Z.eqb_refl. rewrite app_nth2 by (unfold zlen; lia). replace (Z.to_nat (zlen (znth rows i)) - length (znth rows i))%nat with 0%nat by (unfold zlen; lia). reflexivity.
      * replace (_ =? _) with false by lia. rewrite app_nth1 by (unfold zlen in *; lia). apply H3. lia.
    + destruct (H j Hj) as (J1 & J2 & J3). replace (j * 2 + 1 =? _) with false by lia. split; [assumption|]. split; [assumption|].
      intros k Hk. rewrite Cb. destruct (offs lens j + k =? _) eqn:Eo; [|auto]. exfalso.
      destruct (Z_lt_le_dec j i).
      * pose proof (offs_mono lens F (j + 1) i ltac:(lia) ltac:(lia)) as Q. rewrite offs_succ in Q by assumption. lia.
      * pose proof (offs_mono lens F (i + 1) j ltac:(lia) ltac:(lia)) as Q. rewrite offs_succ in Q by assumption. lia.
Qed.
(* after the filled constructor no element can be pushed *)
Lemma hl_full_throws heads lens p i v : Forall (fun x => 0 <= x) lens -> length heads = length lens -> hl_make true heads lens = Ok p ->
  0 <= i < zlen lens -> hl_push_at i v p = Throw.
Proof.
  intros F Hl E Hi. destruct (hl_make_ok true heads lens F Hl) as (p' & E' & B & C). rewrite E in E'. injection E' as <-.
  assert (Mo := max_size_ok p lens i B Hi). destruct (C i Hi) as [C1 C2]. destruct B as (T & _). unfold hl_push_at, ap_push_at, ap_size_of, ap_size.
  rewrite Mo. assert (T0 := T). destruct T0 as (_ & _ & -> & _). replace (i <? zlen lens) with true by lia. cbn [assrt]. rewrite (it_get_ok _ _ _ i 1 _ T C1). cbn [bind].
  rewrite Z.ltb_irrefl. reflexivity.
Qed.

(* constructor from a map of lists *)
Lemma hl_of_map_ok m : exists p, hl_of_map m = Ok p /\ prep p (map hrow m).
Proof.
  unfold hl_of_map. set (ts := fold_right Z.add 0 (map (fun p => Z.of_nat (length (snd p))) m)). fold (zlen m). set (n := zlen m).
  match goal with |- context [foldM ?g _ _] => set (f := g) end.
  set (tot := fun l : list (Z * list Z) => fold_right Z.add 0 (map (fun p => Z.of_nat (length (snd p)) + 1) l)).
  assert (Etot : n + ts = tot m). { unfold n, ts, tot, zlen. clear. induction m as [|e m IH]; cbn [map fold_right length]; [reflexivity|]. rewrite <- IH. lia. }
  assert (Tapp : forall a b, tot (a ++ b) = tot a + tot b). { intros a b. unfold tot. induction a as [|e a IH]; cbn; [lia|rewrite IH; lia]. }
  assert (Tpos : forall a, 0 <= tot a). { unfold tot. induction a; cbn; lia. }
  destruct (foldM_inv (fun done st => fst st = zlen done /\ tab (adir (snd st)) 2 n /\ atail (snd st) = tot done /\ blen (amem (snd st)) = tot m /\
      forall j, 0 <= j < zlen done -> holds (snd st) j (znth (map hrow done) j)) f m (0, ap_new_reserve n (n + ts))) as ([i p] & E & Ei & T & A & B & C).
  - cbn. split; [reflexivity|]. split; [apply tab_new; [lia|apply zlen_nonneg]|]. split; [reflexivity|]. split; [rewrite blen_new; [exact Etot|rewrite Etot; auto]|]. unfold zlen. cbn. intros j Hj. lia.
  - intros done e rest [i p] El (Ei & T & A & B & C). cbn [fst snd] in *. unfold f.
    assert (Hn : n = i + 1 + zlen rest). { unfold n. rewrite El. unfold zlen in *. rewrite app_length. cbn [length]. lia. }
    pose proof (zlen_nonneg done). pose proof (zlen_nonneg rest).
    destruct (it_set_ok _ _ _ i 0 (atail p) T) as (d1 & -> & T1 & _ & D1); [lia|lia|]. cbn [bind].
    destruct (it_set_ok _ _ _ i 1 (Z.of_nat (length (snd e)) + 1) T1) as (d2 & -> & T2 & _ & D2); [lia|lia|]. cbn [bind].
    assert (Hsz : atail p + (Z.of_nat (length (snd e)) + 1) <= blen (amem p)).
    { rewrite A, B, El, Tapp. unfold tot at 3. cbn [map fold_right]. fold (tot rest). specialize (Tpos rest). lia. }
    assert (0 <= atail p) by (rewrite A; auto).
    destruct (bput_ok (amem p) (atail p) (fst e)) as (b1 & -> & L1 & C1); [lia|]. cbn [bind].
    destruct (bwrite_ok (snd e) b1 (atail p + 1)) as (b2 & -> & L2 & C2); [lia|lia|]. cbn [bind]. eexists. split; [reflexivity|]. cbn [fst snd adir atail amem].
    split; [rewrite zlen_app; change (zlen [e]) with 1; lia|]. split; [assumption|]. split; [rewrite Tapp; unfold tot at 2; cbn; lia|]. split; [lia|].
    rewrite zlen_app. change (zlen [e]) with 1. intros j Hj. rewrite map_app. assert (Zm : zlen (map hrow done) = zlen done) by (unfold zlen; now rewrite map_length).
    destruct (Z.eq_dec j (zlen done)) as [->|].
    + rewrite znth_app2 by lia. rewrite Zm, Z.sub_diag. cbn. exists (atail p). cbn [adir amem atail]. rewrite !D2, !D1, Ei.
      replace (zlen done * 2 =? zlen done * 2 + 1) with false by lia. replace (zlen done * 2 =? zlen done * 2 + 0) with true by lia. rewrite Z.eqb_refl.
      assert (Zh : zlen (hrow e) = Z.of_nat (length (snd e)) + 1) by (unfold zlen, hrow; cbn [length]; lia). rewrite Zh.
      repeat split; try lia. intros k Hk. rewrite C2, C1. destruct (Z.eq_dec k 0) as [->|].
      * rewrite Z.add_0_r, Z.eqb_refl. replace (atail p + 1 <=? atail p) with false by lia. reflexivity.
      * replace (atail p + 1 <=? atail p + k) with true by lia. replace (atail p + k <? _) with true by lia. cbn [andb].
        unfold hrow. replace (Z.to_nat k) with (S (Z.to_nat (atail p + k - (atail p + 1)))) by lia. reflexivity.
    + rewrite znth_app1 by lia. apply (holds_mono p); cbn [adir atail amem]; try lia; [apply C; lia| |].
      * intros k Hk. rewrite D2, D1. replace (k =? _) with false by lia. now replace (k =? _) with false by lia.
      * intros k Hk. rewrite C2, C1. replace (atail p + 1 <=? k) with false by lia. cbn. now replace (k =? _) with false by lia.
  - rewrite E. cbn. exists p. split; [reflexivity|]. unfold prep. assert (Zm : zlen (map hrow m) = n) by (unfold n, zlen; now rewrite map_length). rewrite Zm. cbn in *. fold n in C.
    split; [assumption|]. split; [|assumption]. rewrite A, B. specialize (Tpos m). lia.
Qed.
