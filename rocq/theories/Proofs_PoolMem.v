(* Proofs_PoolMem.v -- pools of arrays as owners of memory. *)
From Verif Require Import Base BaseFacts Map Model_Containers Proofs_Containers Proofs_Containers2 Model_PoolMem Spec_PoolMem.
Local Open Scope Z_scope.

(* ---- lists *)
Lemma cut {A} (d : A) (L : list A) i : 0 <= i < zlen L -> exists P Q, L = P ++ nth (Z.to_nat i) L d :: Q /\ zlen P = i.
Proof.
  unfold zlen. intro Hi. destruct (nth_split L d (n := Z.to_nat i)) as (P & Q & E & H); [lia|]. exists P, Q. split; [exact E|lia].
Qed.
Lemma repl_app {A} (x y : A) P Q i : zlen P = i -> repl i x (P ++ y :: Q) = P ++ x :: Q.
Proof.
  unfold zlen, repl. intro H. assert (E : Z.to_nat i = length P) by lia. rewrite E. rewrite firstn_app, Nat.sub_diag, firstn_all. cbn [firstn]. rewrite app_nil_r. f_equal. f_equal.
  rewrite skipn_app. rewrite skipn_all2 by lia. replace (S (length P) - length P)%nat with 1%nat by lia. reflexivity.
Qed.
Definition off (L : list (list Z)) (i : Z) : Z := zlen (concat (firstn (Z.to_nat i) L)).
Lemma off_app P r Q i : zlen P = i -> off (P ++ r :: Q) i = zlen (concat P).
Proof. unfold off, zlen. intro H. replace (Z.to_nat i) with (length P) by lia. rewrite firstn_app, Nat.sub_diag, firstn_all. cbn [firstn]. now rewrite app_nil_r. Qed.
Lemma znth_mid P r Q i : zlen P = i -> znth (P ++ r :: Q) i = r.
Proof. unfold znth, zlen. intro H. rewrite app_nth2 by lia. replace (_ - _)%nat with 0%nat by lia. reflexivity. Qed.
Lemma cutz (L : list (list Z)) i : 0 <= i < zlen L -> exists P r Q, L = P ++ r :: Q /\ zlen P = i.
Proof. intro Hi. destruct (cut [] L i Hi) as (P & Q & E & H). exists P, (nth (Z.to_nat i) L []), Q. auto. Qed.
Lemma off_in L i : 0 <= i < zlen L -> 0 <= off L i /\ off L i + zlen (znth L i) <= zlen (concat L).
Proof.
  intro Hi. destruct (cutz L i Hi) as (P & r & Q & -> & HP). rewrite off_app, znth_mid by assumption. rewrite concat_app, zlen_app. cbn [concat]. rewrite zlen_app.
  pose proof (zlen_nonneg (concat P)). pose proof (zlen_nonneg (concat Q)). lia.
Qed.
Lemma off_nth L i k : 0 <= i < zlen L -> 0 <= k < zlen (znth L i) -> nth (Z.to_nat (off L i + k)) (concat L) 0 = nth (Z.to_nat k) (znth L i) 0.
Proof.
  intro Hi. destruct (cutz L i Hi) as (P & r & Q & -> & HP). rewrite off_app, znth_mid by assumption. unfold zlen. intro Hk. rewrite concat_app. rewrite app_nth2 by lia.
  cbn [concat]. rewrite app_nth1 by lia. f_equal. lia.
Qed.
Lemma off_app1 L M i : 0 <= i <= zlen L -> off (L ++ M) i = off L i.
Proof. unfold off, zlen. intro Hi. rewrite firstn_app. replace (Z.to_nat i - length L)%nat with 0%nat by lia. cbn [firstn]. now rewrite app_nil_r. Qed.
Lemma off_all L : off L (zlen L) = zlen (concat L).
Proof. unfold off, zlen. now rewrite Nat2Z.id, firstn_all. Qed.
Lemma off_succ L i : 0 <= i < zlen L -> off L (i + 1) = off L i + zlen (znth L i).
Proof.
  intro Hi. destruct (cutz L i Hi) as (P & r & Q & -> & HP). rewrite (off_app P r Q i HP), (znth_mid P r Q i HP). unfold off, zlen in *. replace (Z.to_nat (i + 1)) with (length P + 1)%nat by lia.
  rewrite firstn_app_2. rewrite concat_app, app_length. cbn [firstn concat]. rewrite app_nil_r. lia.
Qed.
Lemma row_znth L i : row_of L i = znth L i. Proof. reflexivity. Qed.
Lemma within_iff i j L : within i j L = true <-> (0 <= i < zlen L /\ 0 <= j < zlen (znth L i)).
Proof. unfold within. change (@zl) with (@zlen). rewrite row_znth, !andb_true_iff. lia. Qed.
(* the effect of a change of one entry *)
Lemma repl_length {A} n (x : A) l : 0 <= n < zlen l -> zlen (repl n x l) = zlen l.
Proof. intro Hn. destruct (cut x l n Hn) as (P & Q & E & H). set (y := nth (Z.to_nat n) l x) in E. clearbody y. subst l. rewrite repl_app by assumption. rewrite !zlen_app. unfold zlen. cbn [length]. lia. Qed.
Lemma repl_nth {A} n (x d : A) l k : 0 <= n < zlen l -> nth k (repl n x l) d = if (k =? Z.to_nat n)%nat then x else nth k l d.
Proof.
  intro Hn. destruct (cut d l n Hn) as (P & Q & E & H). set (y := nth (Z.to_nat n) l d) in E. clearbody y. subst l. rewrite repl_app by assumption. destruct (k =? Z.to_nat n)%nat eqn:Ek.
  - apply Nat.eqb_eq in Ek as ->. unfold zlen in H. rewrite app_nth2 by lia. replace (_ - _)%nat with 0%nat by lia. reflexivity.
  - apply Nat.eqb_neq in Ek. unfold zlen in H. destruct (Nat.lt_ge_cases k (length P)); [now rewrite !app_nth1 by lia|].
    rewrite !app_nth2 by lia. destruct (k - length P)%nat eqn:Ed; [lia|]. reflexivity.
Qed.
Lemma change_row i j v L k : 0 <= i < zlen L -> 0 <= k -> znth (change i j v L) k = if k =? i then repl j v (znth L i) else znth L k.
Proof.
  intros Hi Hk. unfold change, znth. rewrite row_znth. rewrite repl_nth by assumption. destruct (k =? i) eqn:E.
  - replace (Z.to_nat k =? Z.to_nat i)%nat with true by (symmetry; apply Nat.eqb_eq; lia). reflexivity.
  - replace (Z.to_nat k =? Z.to_nat i)%nat with false by (symmetry; apply Nat.eqb_neq; lia). reflexivity.
Qed.
Lemma change_len i j v L : 0 <= i < zlen L -> zlen (change i j v L) = zlen L.
Proof. intro. unfold change. now apply repl_length. Qed.
Lemma concat_change i j v L : 0 <= i < zlen L -> 0 <= j < zlen (znth L i) -> concat (change i j v L) = repl (off L i + j) v (concat L).
Proof.
  intros Hi. destruct (cutz L i Hi) as (P & r & Q & -> & HP). unfold change, row_of. fold (znth (P ++ r :: Q) i). rewrite off_app by assumption. rewrite znth_mid by assumption. rewrite repl_app by assumption. intro Hj.
  destruct (cut 0 r j Hj) as (A & B & Er & HA). set (y := nth (Z.to_nat j) r 0) in *. clearbody y. subst r. rewrite repl_app by assumption. rewrite !concat_app. cbn [concat].
  rewrite <- !app_assoc, <- !app_comm_cons, !(app_assoc (concat P)). rewrite repl_app; [reflexivity|]. rewrite zlen_app. lia.
Qed.
Lemma off_change i j v L k : 0 <= i < zlen L -> 0 <= j < zlen (znth L i) -> 0 <= k < zlen L -> off (change i j v L) k = off L k.
Proof.
  intros Hi Hj Hk. assert (W : forall n, (n <= length L)%nat -> off (change i j v L) (Z.of_nat n) = off L (Z.of_nat n)).
  { induction n as [|n IH]; intro Hn; [reflexivity|]. replace (Z.of_nat (S n)) with (Z.of_nat n + 1) by lia.
    rewrite !off_succ by (rewrite ?change_len by assumption; unfold zlen; lia). rewrite IH by lia. f_equal. rewrite change_row by lia. destruct (_ =? i) eqn:E; [|reflexivity].
    replace (Z.of_nat n) with i by lia. now apply repl_length. }
  replace k with (Z.of_nat (Z.to_nat k)) by lia. apply W. unfold zlen in Hk. lia.
Qed.

(* ---- pools whose rows lie one after another *)
Definition packed (p : apool) (L : list (list Z)) : Prop :=
  tab (adir p) 2 (zlen L) /\ atail p = zlen (concat L) /\ zlen (concat L) <= blen (amem p) /\
  (forall i, 0 <= i < zlen L -> cell (ibuf (adir p)) (i * 2) = Some (off L i) /\ cell (ibuf (adir p)) (i * 2 + 1) = Some (zlen (znth L i))) /\
  (forall k, 0 <= k < zlen (concat L) -> cell (amem p) k = Some (nth (Z.to_nat k) (concat L) 0)).
Lemma packed_prep p L : packed p L -> prep p L.
Proof.
  intros (T & Et & Eb & D & C). pose proof (zlen_nonneg (concat L)). split; [assumption|]. split; [lia|]. intros i Hi. destruct (D i Hi) as [D1 D2]. destruct (off_in L i Hi).
  exists (off L i). repeat split; auto; try lia. intros k Hk. rewrite C by lia. f_equal. now apply off_nth.
Qed.
Definition dir_of (d : itab) (L : list (list Z)) : Prop :=
  tab d 2 (zlen L) /\ forall i, 0 <= i < zlen L -> cell (ibuf d) (i * 2) = Some (off L i) /\ cell (ibuf d) (i * 2 + 1) = Some (zlen (znth L i)).
Definition cells_of (b : buf) (L : list (list Z)) : Prop :=
  zlen (concat L) <= blen b /\ forall k, 0 <= k < zlen (concat L) -> cell b k = Some (nth (Z.to_nat k) (concat L) 0).
Lemma packed_iff p L : packed p L <-> (dir_of (adir p) L /\ atail p = zlen (concat L) /\ cells_of (amem p) L).
Proof. unfold packed, dir_of, cells_of. tauto. Qed.
Lemma dir_copy d L : dir_of d L -> exists d', it_copy d = Ok d' /\ dir_of d' L.
Proof.
  intros (T & D). destruct (it_copy_ok _ _ _ T) as (d' & E & T' & _ & C). exists d'. split; [exact E|]. split; [exact T'|]. intros i Hi. rewrite !C by lia. auto.
Qed.
Lemma dir_push d L v : dir_of d L -> exists d', it_push2 (zlen (concat L)) (Z.of_nat (length v)) d = Ok d' /\ dir_of d' (L ++ [v]).
Proof.
  intros (T & D). destruct (it_push_ok _ _ _ [zlen (concat L); Z.of_nat (length v)] T eq_refl) as (d' & E & T' & C1 & C2). exists d'. split; [exact E|].
  split; [rewrite zlen_app; exact T'|]. rewrite zlen_app. change (zlen [v]) with 1. intros i Hi. destruct (Z.eq_dec i (zlen L)) as [->|Hne].
  - rewrite znth_app2 by lia. rewrite Z.sub_diag. rewrite off_app1 by lia. rewrite off_all. split; [rewrite <- (Z.add_0_r (zlen L * 2)); now rewrite C2 by lia|now rewrite C2 by lia].
  - rewrite znth_app1, off_app1 by lia. rewrite !C1 by lia. apply D. lia.
Qed.
Lemma dir_change d L i j v : dir_of d L -> 0 <= i < zlen L -> 0 <= j < zlen (znth L i) -> dir_of d (change i j v L).
Proof.
  intros (T & D) Hi Hj. split; rewrite change_len by assumption; [assumption|]. intros k Hk. rewrite off_change by assumption. rewrite change_row by lia.
  destruct (D k Hk) as [D1 D2]. split; [assumption|]. destruct (k =? i) eqn:E; [|assumption]. rewrite repl_length by assumption. rewrite D2. do 2 f_equal. f_equal. lia.
Qed.
Lemma cells_copy b L : cells_of b L -> exists b', bcopy b (zlen (concat L)) (bnew (zlen (concat L))) 0 = Ok b' /\ cells_of b' L /\ blen b' = zlen (concat L).
Proof.
  intros (H & C). pose proof (zlen_nonneg (concat L)). destruct (bcopy_ok b (zlen (concat L)) (bnew (zlen (concat L))) 0) as (b' & E & Lb & Cb); [lia|lia|rewrite blen_new; lia|].
  rewrite blen_new in Lb by lia. exists b'. split; [exact E|]. split; [|exact Lb]. split; [lia|]. intros k Hk. rewrite Cb. replace (0 <=? k) with true by lia. replace (k <? _) with true by lia. cbn [andb].
  rewrite Z.sub_0_r. auto.
Qed.
Lemma cells_grow b L n : cells_of b L -> blen b < n -> exists b', bcopy b (blen b) (bnew n) 0 = Ok b' /\ cells_of b' L /\ blen b' = n.
Proof.
  intros (H & C) Hn. pose proof (blen_nonneg b). destruct (bcopy_ok b (blen b) (bnew n) 0) as (b' & E & Lb & Cb); [lia|lia|rewrite blen_new; lia|].
  rewrite blen_new in Lb by lia. exists b'. split; [exact E|]. split; [|exact Lb]. split; [lia|]. intros k Hk. rewrite Cb. replace (0 <=? k) with true by lia. replace (k <? _) with true by lia. cbn [andb].
  rewrite Z.sub_0_r. auto.
Qed.
Lemma cells_write b L v : cells_of b L -> zlen (concat L) + zlen v <= blen b -> exists b', bwrite b (zlen (concat L)) v = Ok b' /\ cells_of b' (L ++ [v]) /\ blen b' = blen b.
Proof.
  intros (H & C) Hl. pose proof (zlen_nonneg (concat L)). destruct (bwrite_ok v b (zlen (concat L))) as (b' & E & Lb & Cb); [lia|exact Hl|]. exists b'. split; [exact E|]. split; [|exact Lb].
  unfold cells_of. rewrite concat_app. cbn [concat]. rewrite app_nil_r, zlen_app. split; [lia|]. intros k Hk. rewrite Cb. fold (zlen v). destruct (Z_lt_le_dec k (zlen (concat L))).
  - replace (_ <=? k) with false by lia. cbn [andb]. rewrite C by lia. rewrite app_nth1 by (unfold zlen in *; lia). reflexivity.
  - replace (_ <=? k) with true by lia. replace (k <? _) with true by lia. cbn [andb]. rewrite app_nth2 by (unfold zlen in *; lia). do 2 f_equal. unfold zlen. lia.
Qed.
Lemma cells_change b L i j v : cells_of b L -> 0 <= i < zlen L -> 0 <= j < zlen (znth L i) -> exists b', bput b (off L i + j) v = Ok b' /\ cells_of b' (change i j v L) /\ blen b' = blen b.
Proof.
  intros (H & C) Hi Hj. destruct (off_in L i Hi). destruct (bput_ok b (off L i + j) v) as (b' & E & Lb & Cb); [lia|]. exists b'. split; [exact E|]. split; [|exact Lb]. unfold cells_of.
  rewrite concat_change by assumption. rewrite repl_length by lia. split; [lia|]. intros k Hk. rewrite Cb, repl_nth by lia. destruct (k =? off L i + j) eqn:Ek.
  - replace (Z.to_nat k =? _)%nat with true by (symmetry; apply Nat.eqb_eq; lia). reflexivity.
  - replace (Z.to_nat k =? _)%nat with false by (symmetry; apply Nat.eqb_neq; lia). auto.
Qed.

(* ---- owners *)
Definition unused (h : pheap) : Prop := forall a, pnext h <= a -> parrs h a = None.
Definition owned (h : pheap) (o : pobj) (L : list (list Z)) : Prop :=
  pview o = false /\ dir_of (pdir o) L /\ ptail o = zlen (concat L) /\ cells_of (pcells (parr o) h) L /\
  pmem o = blen (pcells (parr o) h) /\ forall a, parr o = Some a -> parrs h a <> None.
Definition moves (h h' : pheap) (old new : option Z) : Prop :=
  (forall a, old <> Some a -> new <> Some a -> parrs h' a = parrs h a) /\
  (forall a, old = Some a -> new <> Some a -> parrs h' a = None) /\
  (forall a, new = Some a -> old = Some a \/ parrs h a = None) /\ unused h'.
Lemma moves_refl h x : unused h -> moves h h x x.
Proof. intro U. split; [|split; [|split]]; auto. intros a -> H. now contradiction H. Qed.
Lemma moves_trans h h1 h2 x y z : moves h h1 x y -> moves h1 h2 y z -> moves h h2 x z.
Proof.
  intros (A1 & A2 & A3 & A4) (B1 & B2 & B3 & B4).
  assert (D : forall u v : option Z, u = v \/ u <> v) by (intros [u|] [v|]; try (destruct (Z.eq_dec u v); [left|right]; congruence); [right|right|left]; congruence).
  split; [|split; [|split; [|exact B4]]].
  - intros a Hx Hz. destruct (D y (Some a)) as [E|E]; [|now rewrite B1, A1 by assumption]. rewrite (B2 a E Hz). destruct (A3 a E) as [|R]; [contradiction|now symmetry].
  - intros a Hx Hz. destruct (D y (Some a)) as [E|E]; [now apply B2|]. rewrite B1 by assumption. now apply A2.
  - intros a Hz. destruct (B3 a Hz) as [E|E]; [now apply A3|]. destruct (D x (Some a)) as [F|F]; [now left|]. right. destruct (D y (Some a)) as [G|G].
    + destruct (A3 a G) as [|R]; [contradiction|assumption].
    + now rewrite <- (A1 a F G).
Qed.
Lemma free_ok h o : unused h -> (forall a, o = Some a -> parrs h a <> None) -> exists h', pfree o h = Ok h' /\ moves h h' o None.
Proof.
  intros U H. destruct o as [a|]; cbn [pfree]; [|exists h; split; [reflexivity|now apply moves_refl]]. specialize (H a eq_refl). destruct (parrs h a) as [b|] eqn:E; [|congruence].
  eexists. split; [reflexivity|]. split; [|split; [|split]]; cbn.
  - intros c Hc _. destruct (c =? a) eqn:Ec; [|reflexivity]. apply Z.eqb_eq in Ec. congruence.
  - intros c Hc _. injection Hc as <-. now rewrite Z.eqb_refl.
  - discriminate.
  - intros c Hc. cbn in *. destruct (c =? a); [reflexivity|]. now apply U.
Qed.
Lemma alloc_ok h b : unused h -> exists a h', palloc b h = (a, h') /\ moves h h' None (Some a) /\ parrs h' a = Some b /\ parrs h a = None.
Proof.
  intro U. eexists. eexists. split; [reflexivity|]. cbn. rewrite Z.eqb_refl. split; [|split; [reflexivity|apply U; lia]]. split; [|split; [|split]]; cbn.
  - intros c _ Hc. destruct (c =? pnext h) eqn:Ec; [|reflexivity]. apply Z.eqb_eq in Ec. congruence.
  - discriminate.
  - intros c Hc. injection Hc as <-. right. apply U. lia.
  - intros c Hc. cbn in *. replace (c =? pnext h) with false by lia. apply U. lia.
Qed.
Lemma store_ok h o b : unused h -> moves h (pstore o b h) o o.
Proof.
  intro U. destruct o as [a|]; [|now apply moves_refl]. cbn [pstore]. destruct (parrs h a) as [c|] eqn:E; [|now apply moves_refl]. split; [|split; [|split]]; cbn.
  - intros d Hd _. destruct (d =? a) eqn:Ed; [|reflexivity]. apply Z.eqb_eq in Ed. congruence.
  - intros d -> Hd. now contradiction Hd.
  - auto.
  - intros d Hd. cbn in *. destruct (d =? a) eqn:Ed; [|now apply U]. apply Z.eqb_eq in Ed as ->. rewrite U in E by lia. discriminate.
Qed.
Lemma store_cells h o b : (forall a, o = Some a -> parrs h a <> None) -> (o = None -> b = []) -> pcells o (pstore o b h) = b.
Proof.
  intros H Hn. destruct o as [a|]; [|symmetry; now apply Hn]. specialize (H a eq_refl). cbn. destruct (parrs h a) eqn:E; [|congruence]. cbn. now rewrite Z.eqb_refl.
Qed.
Lemma store_live h o b : (forall a, o = Some a -> parrs h a <> None) -> forall a, o = Some a -> parrs (pstore o b h) a <> None.
Proof. intros H a ->. cbn. destruct (parrs h a) eqn:E; [|now apply H]. cbn. rewrite Z.eqb_refl. discriminate. Qed.
Lemma blen_nil b : blen b = 0 -> b = []. Proof. destruct b; [reflexivity|]. unfold blen. cbn [length]. lia. Qed.

Lemma new_owned h : owned h po_new [].
Proof.
  unfold owned, po_new, dir_of, cells_of, tab. cbn. split; [reflexivity|]. split; [split; [repeat split; lia|intros; unfold zlen in *; cbn in *; lia]|]. split; [reflexivity|].
  split; [split; [reflexivity|unfold zlen; cbn; intros; lia]|]. split; [reflexivity|discriminate].
Qed.
Lemma reserve_owned n h o L : unused h -> owned h o L -> exists o' h', po_reserve n o h = Ok (o', h') /\ owned h' o' L /\ moves h h' (parr o) (parr o') /\ n <= pmem o'.
Proof.
  intros U O. assert (O0 := O). destruct O as (V & D & T & C & M & A). unfold po_reserve. destruct (n <=? pmem o) eqn:E.
  - exists o, h. split; [reflexivity|]. split; [exact O0|]. split; [now apply moves_refl|lia].
  - assert (G : exists b, match parr o with None => Ok (bnew n) | Some _ => bcopy (pcells (parr o) h) (pmem o) (bnew n) 0 end = Ok b /\ cells_of b L /\ blen b = n).
    { destruct (parr o) as [a|] eqn:Ea.
      - rewrite M. apply cells_grow; [exact C|lia].
      - cbn in C, M. exists (bnew n). split; [reflexivity|]. change (blen []) with 0 in M. rewrite blen_new by lia. split; [|reflexivity]. destruct C as (C1 & C2). change (blen []) with 0 in C1.
        split; [rewrite blen_new; lia|]. intros k Hk. lia. }
    destruct G as (b & -> & Cb & Lb). cbn [bind]. destruct (free_ok h (parr o) U A) as (h1 & -> & M1). cbn [bind]. destruct (alloc_ok h1 b) as (a & h2 & -> & M2 & P & _); [apply M1|].
    eexists. exists h2. split; [reflexivity|]. cbn [parr pmem]. split; [|split; [now apply moves_trans with h1 None|lia]].
    unfold owned. cbn [pview pdir ptail parr pmem pcells]. rewrite P. split; [assumption|]. split; [assumption|]. split; [assumption|]. split; [assumption|]. split; [now symmetry|].
    intros c Hc. injection Hc as <-. congruence.
Qed.
Lemma push_owned v h o L : unused h -> owned h o L -> exists o' h', po_push v o h = Ok (o', h') /\ owned h' o' (L ++ [v]) /\ moves h h' (parr o) (parr o').
Proof.
  intros U O. unfold po_push. fold (zlen v).
  assert (G : exists o1 h1, (if pmem o <? ptail o + zlen v then po_reserve (Z.max (2 * pmem o) (ptail o + zlen v)) o h else Ok (o, h)) = Ok (o1, h1) /\
     owned h1 o1 L /\ moves h h1 (parr o) (parr o1) /\ zlen (concat L) + zlen v <= pmem o1).
  { assert (T : ptail o = zlen (concat L)) by apply O. destruct (_ <? _) eqn:E.
    - destruct (reserve_owned (Z.max (2 * pmem o) (ptail o + zlen v)) h o L U O) as (o1 & h1 & -> & O1 & M1 & S1). exists o1, h1. split; [reflexivity|]. split; [assumption|]. split; [assumption|lia].
    - exists o, h. split; [reflexivity|]. split; [assumption|]. split; [now apply moves_refl|lia]. }
  destruct G as (o1 & h1 & -> & (V & D & T & C & M & A) & M1 & S1). cbn [bind]. rewrite T. destruct (cells_write _ _ v C ltac:(lia)) as (b & -> & Cb & Lb). cbn [bind].
  destruct (dir_push _ _ v D) as (d & Ed & Dd). change (Z.of_nat (length v)) with (zlen v) in Ed. rewrite Ed. cbn [bind]. eexists. eexists. split; [reflexivity|]. cbn [parr].
  assert (U1 : unused h1) by apply M1. split; [|apply moves_trans with h1 (parr o1); [assumption|now apply store_ok]].
  assert (N : parr o1 = None -> b = []) by (intro Hn; apply blen_nil; rewrite Lb; now rewrite Hn).
  unfold owned. cbn [pview pdir ptail parr pmem]. rewrite store_cells by assumption. split; [assumption|]. split; [assumption|].
  split; [rewrite concat_app, zlen_app; cbn [concat]; now rewrite app_nil_r|]. split; [assumption|]. split; [congruence|]. now apply store_live.
Qed.
Lemma set_owned i j v h o L : unused h -> owned h o L -> 0 <= i < zlen L -> 0 <= j < zlen (znth L i) ->
  exists h', po_set i j v o h = Ok h' /\ owned h' o (change i j v L) /\ moves h h' (parr o) (parr o).
Proof.
  intros U (V & D & T & C & M & A) Hi Hj. unfold po_set. assert (D0 := D). destruct D0 as (Td & Cd). assert (Er : irows (pdir o) = zlen L) by apply Td. rewrite Er.
  replace (i <? zlen L) with true by lia. cbn [assrt]. destruct (Cd i Hi) as [C1 C2]. rewrite (it_get_ok _ _ _ i 1 _ Td C2). cbn [bind]. replace (j <? _) with true by lia. cbn [assrt].
  rewrite (it_get_ok _ _ _ i 0 (off L i) Td) by (now rewrite Z.add_0_r). cbn [bind]. destruct (cells_change _ _ i j v C Hi Hj) as (b & -> & Cb & Lb). cbn [bind]. eexists. split; [reflexivity|].
  split; [|now apply store_ok].
  assert (N : parr o = None -> b = []) by (intro Hn; apply blen_nil; rewrite Lb; now rewrite Hn).
  unfold owned. rewrite store_cells by assumption. split; [assumption|]. split; [now apply dir_change|].
  split; [rewrite concat_change, repl_length by (try assumption; destruct (off_in L i Hi); lia); assumption|]. split; [assumption|]. split; [congruence|]. now apply store_live.
Qed.
(* what copying needs of the source: it may be a view *)
Definition legible (h : pheap) (x : pobj) (L : list (list Z)) : Prop :=
  dir_of (pdir x) L /\ ptail x = zlen (concat L) /\ cells_of (pcells (parr x) h) L.
Lemma owned_legible h o L : owned h o L -> legible h o L.
Proof. intros (V & D & T & C & M & A). split; [|split]; assumption. Qed.
Lemma copy_owned h x L : unused h -> legible h x L -> exists o' h', po_copy x h = Ok (o', h') /\ owned h' o' L /\ moves h h' None (parr o').
Proof.
  intros U (D & T & C). unfold po_copy. rewrite T. destruct (cells_copy _ _ C) as (b & -> & Cb & Lb). cbn [bind]. destruct (alloc_ok h b U) as (a & h2 & -> & M2 & P & _).
  destruct (dir_copy _ _ D) as (d & -> & Dd). cbn [bind]. eexists. exists h2. split; [reflexivity|]. cbn [parr]. split; [|assumption].
  unfold owned. cbn [pview pdir ptail parr pmem pcells]. rewrite P. split; [reflexivity|]. split; [assumption|]. split; [reflexivity|]. split; [assumption|]. split; [now symmetry|].
  intros c Hc. injection Hc as <-. congruence.
Qed.
Lemma assign_owned h o x L : unused h -> (pview o = false -> forall a, parr o = Some a -> parrs h a <> None) -> legible h x L ->
  (pview o = false -> forall a, parr o = Some a -> parr x <> Some a) ->
  exists o' h', po_assign o x h = Ok (o', h') /\ owned h' o' L /\ moves h h' (if pview o then None else parr o) (parr o').
Proof.
  intros U A (D & T & C) Hd. unfold po_assign.
  assert (G : exists h1, (if pview o then Ok h else pfree (parr o) h) = Ok h1 /\ moves h h1 (if pview o then None else parr o) None).
  { destruct (pview o); [exists h; split; [reflexivity|now apply moves_refl]|]. now apply free_ok; auto. }
  destruct G as (h1 & -> & M1). cbn [bind]. destruct (dir_copy _ _ D) as (d & -> & Dd). cbn [bind]. rewrite T.
  assert (C1 : cells_of (pcells (parr x) h1) L).
  { assert (E : pcells (parr x) h1 = pcells (parr x) h); [|now rewrite E]. destruct (parr x) as [a|]; [|reflexivity]. cbn. destruct M1 as (M1 & _). rewrite M1; [reflexivity| |discriminate].
    destruct (pview o); [discriminate|]. intro F. now apply (Hd eq_refl a F). }
  destruct (cells_copy _ _ C1) as (b & -> & Cb & Lb). cbn [bind]. destruct (alloc_ok h1 b) as (a & h2 & -> & M2 & P & _); [apply M1|].
  eexists. exists h2. split; [reflexivity|]. cbn [parr]. split; [|now apply moves_trans with h1 None].
  unfold owned. cbn [pview pdir ptail parr pmem pcells]. rewrite P. split; [reflexivity|]. split; [assumption|]. split; [reflexivity|]. split; [assumption|]. split; [now symmetry|].
  intros c Hc. injection Hc as <-. congruence.
Qed.

(* ---- states *)
Definition arr_of (o : option pobj) : option Z := match o with Some o => parr o | None => None end.
Definition okv (h : pheap) (v : option (option (list (list Z)))) (o : option pobj) : Prop :=
  match v, o with
  | None, None => True
  | Some None, Some o => pview o = false /\ parr o = None
  | Some (Some L), Some o => owned h o L
  | _, _ => False
  end.
Record inv (s : pst) (e : penv) : Prop := {
  i_ok : forall k, okv (pmemory s) (e k) (pobjs s k);
  i_one : forall k j a, arr_of (pobjs s k) = Some a -> arr_of (pobjs s j) = Some a -> k = j;
  i_all : forall a, parrs (pmemory s) a <> None -> exists k, arr_of (pobjs s k) = Some a;
  i_new : unused (pmemory s) }.
Lemma inv0 : inv pst0 no_pools.
Proof. constructor; cbn; try discriminate; auto; [intros a H; now contradiction H|]. intros a _. reflexivity. Qed.
Lemma okv_live h v o a : okv h v o -> arr_of o = Some a -> parrs h a <> None.
Proof. destruct v as [[L|]|], o as [o|]; cbn; try contradiction; try discriminate; [intros (_ & _ & _ & _ & _ & A); auto|intros [_ E] F; congruence]. Qed.
Lemma okv_keep h h' v o : okv h v o -> (forall a, arr_of o = Some a -> parrs h' a = parrs h a) -> okv h' v o.
Proof.
  destruct v as [[L|]|], o as [o|]; cbn; auto. intros (V & D & T & C & M & A) H.
  assert (E : pcells (parr o) h' = pcells (parr o) h) by (destruct (parr o) as [a|]; cbn; [now rewrite H|reflexivity]).
  unfold owned. rewrite E. do 5 (split; [assumption|]). intros a Ha. rewrite H by assumption. auto.
Qed.
Lemma inv_upd s e k o' v h' : inv s e -> moves (pmemory s) h' (arr_of (pobjs s k)) (arr_of o') -> okv h' v o' ->
  inv (PSt (bindp k o' (pobjs s)) h') (names k v e).
Proof.
  intros [I1 I2 I3 I4] (M1 & M2 & M3 & M4) O.
  assert (K : forall j a, j <> k -> arr_of (pobjs s j) = Some a -> arr_of (pobjs s k) <> Some a /\ arr_of o' <> Some a).
  { intros j a Hj Ha. assert (N : arr_of (pobjs s k) <> Some a) by (intro F; apply Hj; eapply I2; eauto). split; [exact N|]. intro F. destruct (M3 a F) as [|R]; [contradiction|].
    exact (okv_live _ _ _ _ (I1 j) Ha R). }
  constructor; cbn [pmemory pobjs].
  - intro j. unfold bindp, names. destruct (j =? k) eqn:E; [exact O|]. apply okv_keep with (pmemory s); [apply I1|]. intros a Ha. destruct (K j a) as [K1 K2]; [lia|assumption|]. now apply M1.
  - intros i j a. unfold bindp. destruct (i =? k) eqn:Ei, (j =? k) eqn:Ej; intros Hi Hj; try lia.
    + destruct (K j a ltac:(lia) Hj) as [_ N]. contradiction.
    + destruct (K i a ltac:(lia) Hi) as [_ N]. contradiction.
    + eapply I2; eauto.
  - intros a Ha. assert (D : forall u : option Z, u = Some a \/ u <> Some a) by (intros [u|]; [destruct (Z.eq_dec u a); [left|right]; congruence|right; discriminate]).
    destruct (D (arr_of o')) as [E|E]; [exists k; unfold bindp; now rewrite Z.eqb_refl|]. destruct (D (arr_of (pobjs s k))) as [F|F]; [now rewrite M2 in Ha by assumption|].
    rewrite M1 in Ha by assumption. destruct (I3 a Ha) as (j & Hj). exists j. unfold bindp. destruct (j =? k) eqn:Ej; [|assumption]. apply Z.eqb_eq in Ej as ->. contradiction.
  - exact M4.
Qed.
Lemma inv_swap s e k j o o1 o2 L : inv s e -> k <> j -> arr_of (pobjs s k) = None -> pobjs s j = Some o -> e j = Some (Some L) ->
  owned (pmemory s) o1 L -> parr o1 = parr o -> pview o2 = false -> parr o2 = None ->
  inv (PSt (bindp j (Some o2) (bindp k (Some o1) (pobjs s))) (pmemory s)) (names j (Some None) (names k (Some (Some L)) e)).
Proof.
  intros [I1 I2 I3 I4] Hkj Hk Hj He O1 P1 V2 P2. constructor; cbn [pmemory pobjs].
  - intro i. unfold bindp, names. destruct (i =? j); [cbn; auto|]. destruct (i =? k); [exact O1|apply I1].
  - intros i l a. unfold bindp. assert (Q : forall i, (i =? j) = false -> (i =? k) = true -> forall l a, (l =? j) = false -> (l =? k) = false -> arr_of (Some o1) = Some a -> arr_of (pobjs s l) = Some a -> False).
    { intros i0 _ _ l0 a0 Hl _ Ha Hl'. cbn in Ha. rewrite P1 in Ha. assert (l0 = j) by (apply (I2 l0 j a0); [assumption|now rewrite Hj]). lia. }
    destruct (i =? j) eqn:Ei; [cbn; rewrite P2; discriminate|]. destruct (l =? j) eqn:El; [cbn; rewrite P2; discriminate|].
    destruct (i =? k) eqn:Ei', (l =? k) eqn:El'; intros A B; [lia|destruct (Q i Ei Ei' l a El El' A B)|destruct (Q l El El' i a Ei Ei' B A)|exact (I2 _ _ _ A B)].
  - intros a Ha. destruct (I3 a Ha) as (i & Hi). unfold bindp. destruct (Z.eq_dec i j) as [->|Hij].
    + exists k. replace (k =? j) with false by lia. rewrite Z.eqb_refl. cbn. rewrite P1. now rewrite Hj in Hi.
    + exists i. replace (i =? j) with false by lia. destruct (i =? k) eqn:E; [|assumption]. apply Z.eqb_eq in E as ->. congruence.
  - exact I4.
Qed.
Lemma inv_ext s e s' e' : inv s e -> (forall k, pobjs s' k = pobjs s k) -> pmemory s' = pmemory s -> (forall k, e' k = e k) -> inv s' e'.
Proof.
  intros [I1 I2 I3 I4] Ho Hm He. constructor; rewrite ?Hm.
  - intro k. rewrite Ho, He. apply I1.
  - intros k j a. rewrite !Ho. apply I2.
  - intros a Ha. destruct (I3 a Ha) as (k & Hk). exists k. now rewrite Ho.
  - exact I4.
Qed.
Lemma step_ok c s e e' : inv s e -> pmeans c e = Some e' -> exists s', pexec c s = Ok s' /\ inv s' e'.
Proof.
  intros I E. assert (I0 := I). destruct I as [I1 I2 I3 I4].
  assert (Ob : forall k v, e k = Some v -> exists o, pobjs s k = Some o /\ okv (pmemory s) (Some v) (Some o)).
  { intros k v Hk. specialize (I1 k). rewrite Hk in I1. destruct (pobjs s k) as [o|] eqn:Eo; [exists o; auto|]. destruct v; contradiction. }
  assert (No : forall k, e k = None -> pobjs s k = None) by (intros k Hk; specialize (I1 k); rewrite Hk in I1; destruct (pobjs s k); [contradiction|reflexivity]).
  assert (Lv : forall k o, pobjs s k = Some o -> forall a, parr o = Some a -> parrs (pmemory s) a <> None).
  { intros k o Hk a Ha. apply (okv_live _ _ _ a (I1 k)). now rewrite Hk. }
  assert (Ds : forall k j o x, k <> j -> pobjs s k = Some o -> pobjs s j = Some x -> forall a, parr o = Some a -> parr x <> Some a).
  { intros k j o x Hkj Hk Hj a Ha Hx. apply Hkj. apply (I2 k j a); [now rewrite Hk|now rewrite Hj]. }
  assert (Nv : forall k v o, e k = Some v -> pobjs s k = Some o -> pview o = false).
  { intros k v o Hk Ho. specialize (I1 k). rewrite Hk, Ho in I1. destruct v; apply I1. }
  destruct c as [k|k n|k v|k i j v|k j|k j|k j|k j|k j|k]; cbn [pmeans pexec] in *; unfold with_obj, if_new.
  - destruct (e k) eqn:Ek; [discriminate|]. injection E as <-. rewrite (No k Ek). eexists. split; [reflexivity|]. apply inv_upd; [assumption| |apply new_owned]. rewrite (No k Ek). now apply moves_refl.
  - destruct (e k) as [[L|]|] eqn:Ek; try discriminate. injection E as <-. destruct (Ob _ _ Ek) as (o & Eo & O). rewrite Eo. destruct (reserve_owned n _ o L I4 O) as (o' & h' & -> & O' & M & _). cbn [bind].
    eexists. split; [reflexivity|]. assert (X : inv (PSt (bindp k (Some o') (pobjs s)) h') (names k (Some (Some L)) e)) by (apply inv_upd; [assumption|now rewrite Eo|exact O']).
    apply (inv_ext _ _ _ _ X); try reflexivity. intro l. unfold names. destruct (l =? k) eqn:El; [apply Z.eqb_eq in El as ->; exact Ek|reflexivity].
  - destruct (e k) as [[L|]|] eqn:Ek; try discriminate. injection E as <-. destruct (Ob _ _ Ek) as (o & Eo & O). rewrite Eo. destruct (push_owned v _ o L I4 O) as (o' & h' & -> & O' & M). cbn [bind].
    eexists. split; [reflexivity|]. apply inv_upd; [assumption|now rewrite Eo|exact O'].
  - destruct (e k) as [[L|]|] eqn:Ek; try discriminate. destruct (within i j L) eqn:W; [|discriminate]. injection E as <-. apply within_iff in W as [Hi Hj]. destruct (Ob _ _ Ek) as (o & Eo & O). rewrite Eo.
    destruct (set_owned i j v _ o L I4 O Hi Hj) as (h' & -> & O' & M). cbn [bind]. eexists. split; [reflexivity|].
    assert (X : inv (PSt (bindp k (Some o) (pobjs s)) h') (names k (Some (Some (change i j v L))) e)) by (apply inv_upd; [assumption|now rewrite Eo|exact O']).
    assert (Y : forall l, bindp k (Some o) (pobjs s) l = pobjs s l) by (intro l; unfold bindp; destruct (l =? k) eqn:El; [apply Z.eqb_eq in El as ->; now rewrite Eo|reflexivity]).
    apply (inv_ext _ _ _ _ X); try reflexivity. intro l. cbn [pobjs]. symmetry. apply Y.
  - destruct (e j) as [[L|]|] eqn:Ej; try discriminate. destruct (e k) eqn:Ek; [discriminate|]. injection E as <-. rewrite (No k Ek). destruct (Ob _ _ Ej) as (x & Ex & O). rewrite Ex.
    destruct (copy_owned _ x L I4 (owned_legible _ _ _ O)) as (o' & h' & -> & O' & M). cbn [bind]. eexists. split; [reflexivity|]. apply inv_upd; [assumption|now rewrite (No k Ek)|exact O'].
  - destruct (e k) as [w|] eqn:Ek; [|discriminate]. destruct (e j) as [[L|]|] eqn:Ej; try discriminate. destruct (k =? j) eqn:Ekj; [discriminate|]. injection E as <-. destruct (Ob _ _ Ek) as (o & Eo & _), (Ob _ _ Ej) as (x & Ex & O). rewrite Eo, Ex.
    destruct (assign_owned _ o x L I4 (fun _ => Lv _ _ Eo) (owned_legible _ _ _ O)) as (o' & h' & -> & O' & M); [intros _; apply (Ds k j); [lia|assumption|assumption]|]. cbn [bind].
    eexists. split; [reflexivity|]. rewrite (Nv _ _ _ Ek Eo) in M. apply inv_upd; [assumption|now rewrite Eo|exact O'].
  - destruct (e k) eqn:Ek; [discriminate|]. destruct (e j) as [[L|]|] eqn:Ej; try discriminate. injection E as <-. rewrite (No k Ek). destruct (Ob _ _ Ej) as (x & Ex & O). rewrite Ex. cbn [po_move].
    eexists. split; [reflexivity|]. apply (inv_swap s e k j x); [assumption|congruence|now rewrite (No k Ek)|assumption|assumption|destruct x; exact O|reflexivity|exact (Nv _ _ _ Ej Ex)|reflexivity].
  - destruct (e k) as [w|] eqn:Ek; [|discriminate]. destruct (e j) as [[L|]|] eqn:Ej; try discriminate. destruct (k =? j) eqn:Ekj; [discriminate|]. injection E as <-. destruct (Ob _ _ Ek) as (o & Eo & _), (Ob _ _ Ej) as (x & Ex & O). rewrite Eo, Ex.
    unfold po_move_assign. rewrite (Nv _ _ _ Ek Eo). destruct (free_ok _ (parr o) I4 (Lv _ _ Eo)) as (h1 & -> & M1). cbn [bind]. eexists. split; [reflexivity|].
    set (g := PObj None 0 0 (pdir o) false). assert (J : inv (PSt (bindp k (Some g) (pobjs s)) h1) (names k (Some None) e)) by (apply inv_upd; [assumption|now rewrite Eo|split; reflexivity]).
    assert (Jx : okv h1 (Some (Some L)) (Some x)). { destruct J as [J1 _ _ _]. specialize (J1 j). cbn in J1. unfold names, bindp in J1. rewrite Z.eqb_sym, Ekj, Ej, Ex in J1. exact J1. }
    pose proof (inv_swap _ _ k j x (PObj (parr x) (pmem x) (ptail x) (pdir x) (pview x)) (PObj None (pmem x) (ptail x) (it_gone (pdir x)) (pview x)) L J ltac:(lia)) as X.
    cbn [pobjs pmemory] in X. specialize (X ltac:(unfold bindp; rewrite Z.eqb_refl; reflexivity) ltac:(unfold bindp; rewrite Z.eqb_sym, Ekj; exact Ex) ltac:(unfold names; rewrite Z.eqb_sym, Ekj; exact Ej)).
    specialize (X ltac:(destruct x; exact Jx) eq_refl (Nv _ _ _ Ej Ex) eq_refl).
    assert (B : forall l, bindp j (Some (PObj None (pmem x) (ptail x) (it_gone (pdir x)) (pview x))) (bindp k (Some (PObj (parr x) (pmem x) (ptail x) (pdir x) (pview x))) (bindp k (Some g) (pobjs s))) l =
       bindp j (Some (PObj None (pmem x) (ptail x) (it_gone (pdir x)) (pview x))) (bindp k (Some (PObj (parr x) (pmem x) (ptail x) (pdir x) (pview x))) (pobjs s)) l).
    { intro l. unfold bindp. destruct (l =? j), (l =? k); reflexivity. }
    apply (inv_ext _ _ _ _ X); try reflexivity; [intro l; cbn [pobjs]; symmetry; apply B|]. intro l. unfold names. destruct (l =? j), (l =? k); reflexivity.
  - discriminate.
  - destruct (e k) as [w|] eqn:Ek; [|discriminate]. injection E as <-. destruct (Ob _ _ Ek) as (o & Eo & _). rewrite Eo. unfold po_delete. rewrite (Nv _ _ _ Ek Eo).
    destruct (free_ok _ (parr o) I4 (Lv _ _ Eo)) as (h1 & -> & M1). cbn [bind]. eexists. split; [reflexivity|]. apply inv_upd; [assumption|now rewrite Eo|exact I].
Qed.
Lemma run_ok cs : forall s e e', inv s e -> pmeans_all cs e = Some e' -> exists s', prun cs s = Ok s' /\ inv s' e'.
Proof.
  induction cs as [|c cs IH]; intros s e e' I E; cbn in E; [injection E as <-; exists s; auto|]. destruct (pmeans c e) as [e1|] eqn:E1; [|discriminate].
  destruct (step_ok c s e e1 I E1) as (s1 & H1 & I1). destruct (IH _ _ _ I1 E) as (s' & H' & I'). exists s'. unfold prun in *. cbn [foldM]. rewrite H1. cbn [bind]. auto.
Qed.
Lemma legible_packed h o L : legible h o L -> packed (pool_at o h) L.
Proof. intros (D & T & C). apply packed_iff. cbn. auto. Qed.
Lemma legible_reads s k o L : pobjs s k = Some o -> legible (pmemory s) o L -> reads s k L.
Proof.
  intros Eo O. apply legible_packed, packed_prep in O. unfold reads, psize, prow, pentry, with_obj. rewrite Eo. change (@zl) with (@zlen). split; [f_equal; now apply prep_size|].
  split; [intros i Hi; now apply prep_list|]. intros i j Hi Hj. now apply prep_get.
Qed.
Lemma inv_reads s e k L : inv s e -> e k = Some (Some L) -> reads s k L.
Proof.
  intros [I1 _ _ _] Ek. specialize (I1 k). rewrite Ek in I1. destruct (pobjs s k) as [o|] eqn:Eo; [|contradiction]. now apply legible_reads with o, owned_legible.
Qed.
Lemma points_arr s k a : points s k a <-> arr_of (pobjs s k) = Some a.
Proof. unfold points, arr_of. destruct (pobjs s k) as [o|]; split; [intros (x & H & H'); congruence|intro; exists o; auto|intros (x & H & _); discriminate|discriminate]. Qed.
Lemma inv_tidy s e : inv s e -> tidy s e.
Proof.
  intros [I1 I2 I3 I4]. split; [|split].
  - intro k. specialize (I1 k). destruct (e k) as [[L|]|], (pobjs s k); cbn in I1; try contradiction; split; intro; try discriminate; reflexivity.
  - intros a Ha. destruct (I3 a Ha) as (k & Hk). exists k. split; [now apply points_arr|]. intros j Hj. apply points_arr in Hj. eapply I2; eauto.
  - intros k a Hk. apply points_arr in Hk. exact (okv_live _ _ _ _ (I1 k) Hk).
Qed.
