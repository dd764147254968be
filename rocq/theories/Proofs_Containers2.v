From Verif Require Import Base BaseFacts Map Model_Containers Proofs_Containers.
Local Open Scope Z_scope.

Definition zlen {A} (l : list A) : Z := Z.of_nat (length l).
Definition znth (L : list (list Z)) (i : Z) : list Z := nth (Z.to_nat i) L [].

(* row i of the pool is the list v *)
Definition holds (p : apool) (i : Z) (v : list Z) : Prop :=
  exists o, cell (ibuf (adir p)) (i * 2) = Some o /\ cell (ibuf (adir p)) (i * 2 + 1) = Some (zlen v) /\
    0 <= o /\ o + zlen v <= atail p /\ forall k, 0 <= k < zlen v -> cell (amem p) (o + k) = Some (nth (Z.to_nat k) v 0).
Definition prep (p : apool) (L : list (list Z)) : Prop :=
  tab (adir p) 2 (zlen L) /\ 0 <= atail p <= blen (amem p) /\ forall i, 0 <= i < zlen L -> holds p i (znth L i).

Lemma prep_new : prep ap_new [].
Proof. unfold prep, ap_new, tab, zlen; cbn. repeat split; try lia. Qed.
Lemma ap_reserve_ok n p : exists p', ap_reserve n p = Ok p' /\ adir p' = adir p /\ atail p' = atail p /\
  n <= blen (amem p') /\ blen (amem p) <= blen (amem p') /\ forall k, k < blen (amem p) -> cell (amem p') k = cell (amem p) k.
Proof.
  unfold ap_reserve. destruct (n <=? _) eqn:E; [exists p; repeat split; auto; lia|]. pose proof (blen_nonneg (amem p)).
  destruct (bcopy_ok (amem p) (blen (amem p)) (bnew n) 0) as (b & -> & Lb & Cb); [lia|lia|rewrite blen_new by lia; lia|].
  rewrite blen_new in Lb by lia. cbn. eexists. split; [reflexivity|]. cbn. repeat split; auto; try lia.
  intros k Hk. rewrite Cb, Z.sub_0_r. destruct (0 <=? k) eqn:Ek; [replace (k <? _) with true by lia; reflexivity|].
  cbn. rewrite cell_new. unfold cell. now rewrite Ek.
Qed.
Lemma holds_mono p p' i v : holds p i v -> (forall k, k < i * 2 + 2 -> cell (ibuf (adir p')) k = cell (ibuf (adir p)) k) ->
  atail p <= atail p' -> (forall k, k < atail p -> cell (amem p') k = cell (amem p) k) -> holds p' i v.
Proof.
  intros (o & A & B & C & D & E) H1 H2 H3. exists o. rewrite !H1 by lia. repeat split; auto; try lia.
  intros k Hk. rewrite H3 by lia. auto.
Qed.
Lemma prep_reserve n p L : prep p L -> exists p', ap_reserve n p = Ok p' /\ prep p' L.
Proof.
  intros (T & Ht & H). destruct (ap_reserve_ok n p) as (p' & -> & D & E & _ & Lm & C). exists p'. split; [reflexivity|].
  unfold prep. rewrite D, E. repeat split; auto; try apply T; try lia. intros i Hi. apply (holds_mono p); auto; try (rewrite D; auto); try lia.
  intros k Hk. apply C. lia.
Qed.
Lemma ap_room_ok len p : 0 <= atail p <= blen (amem p) -> exists p', ap_room len p = Ok p' /\ adir p' = adir p /\ atail p' = atail p /\
  atail p + len <= blen (amem p') /\ blen (amem p) <= blen (amem p') /\ forall k, k < atail p -> cell (amem p') k = cell (amem p) k.
Proof.
  intro Ht. unfold ap_room. destruct (_ <? _) eqn:E.
  - destruct (ap_reserve_ok (Z.max (2 * blen (amem p)) (atail p + len)) p) as (p' & -> & A & B & C & D & F). exists p'.
    repeat split; auto; try lia. intros k Hk. apply F. lia.
  - exists p. repeat split; auto; lia.
Qed.
Lemma znth_app1 L M i : 0 <= i < zlen L -> znth (L ++ M) i = znth L i.
Proof. unfold znth, zlen. intro. apply app_nth1. lia. Qed.
Lemma znth_app2 L M i : zlen L <= i -> znth (L ++ M) i = znth M (i - zlen L).
Proof. unfold znth, zlen. intro. rewrite app_nth2 by lia. f_equal. lia. Qed.
Lemma zlen_app {A} (l m : list A) : zlen (l ++ m) = zlen l + zlen m.
Proof. unfold zlen. rewrite app_length. lia. Qed.
Lemma zlen_nonneg {A} (l : list A) : 0 <= zlen l. Proof. unfold zlen. lia. Qed.
Lemma prep_push v p L : prep p L -> exists p', ap_push v p = Ok p' /\ prep p' (L ++ [v]) /\ atail p' = atail p + zlen v.
Proof.
  intros (T & Ht & H). unfold ap_push. destruct (ap_room_ok (Z.of_nat (length v)) p Ht) as (p1 & -> & D1 & E1 & R1 & L1 & C1). cbn [bind].
  destruct (bwrite_ok v (amem p1) (atail p1)) as (b & -> & Lb & Cb); [lia|lia|]. cbn [bind]. rewrite D1, E1. unfold it_push2.
  destruct (it_push_ok _ _ _ [atail p; Z.of_nat (length v)] T eq_refl) as (d & -> & Td & Cd1 & Cd2). cbn [bind].
  eexists. split; [reflexivity|]. split; [|reflexivity]. unfold prep. cbn [adir amem atail]. rewrite zlen_app. change (zlen [v]) with 1. split; [assumption|].
  split; [rewrite Lb; lia|]. intros i Hi. destruct (Z.eq_dec i (zlen L)) as [->|Hne].
  - rewrite znth_app2 by lia. rewrite Z.sub_diag. cbn. exists (atail p). cbn [adir amem atail].
    rewrite <- (Z.add_0_r (zlen L * 2)) at 1. rewrite !Cd2 by lia. unfold zlen. repeat split; try lia.
    intros k Hk. rewrite Cb, E1. replace (atail p <=? atail p + k) with true by lia. replace (atail p + k <? _) with true by lia. cbn. do 3 f_equal. lia.
  - rewrite znth_app1 by lia. apply (holds_mono p); cbn [adir amem atail]; try (apply H; lia); try lia.
    + intros k Hk. apply Cd1. lia.
    + intros k Hk. rewrite Cb, E1. replace (atail p <=? k) with false by lia. cbn. apply C1. lia.
Qed.
Lemma prep_copy p L : prep p L -> exists p', ap_copy p = Ok p' /\ prep p' L.
Proof.
  intros (T & Ht & H). unfold ap_copy. destruct (bcopy_ok (amem p) (atail p) (bnew (atail p)) 0) as (b & -> & Lb & Cb); [lia|lia|rewrite blen_new by lia; lia|].
  rewrite blen_new in Lb by lia. cbn [bind]. destruct (it_copy_ok _ _ _ T) as (d & -> & Td & _ & Cd). cbn [bind]. eexists. split; [reflexivity|].
  unfold prep. cbn. split; [assumption|]. split; [lia|]. intros i Hi. apply (holds_mono p); cbn; auto; try lia.
  - intros k Hk. apply Cd. lia.
  - intros k Hk. rewrite Cb, Z.sub_0_r. destruct (0 <=? k) eqn:Ek; [replace (k <? _) with true by lia; reflexivity|].
    cbn. rewrite cell_new. unfold cell. now rewrite Ek.
Qed.
Lemma holds_get p i o v : cell (ibuf (adir p)) (i * 2) = Some o -> tab (adir p) 2 v -> it_get (adir p) i 0 = Ok o.
Proof. intros H T. eapply it_get_ok; eauto. now rewrite Z.add_0_r. Qed.
Lemma prep_list p L i : prep p L -> 0 <= i < zlen L -> ap_list p i = Ok (znth L i).
Proof.
  intros (T & Ht & H) Hi. destruct (H i Hi) as (o & A & B & C & D & E). unfold ap_list, ap_size. assert (T0 := T). destruct T0 as (_ & _ & -> & _).
  replace (i <? _) with true by lia. cbn [assrt]. rewrite (holds_get _ _ _ _ A T), (it_get_ok _ _ _ i 1 _ T B). cbn [bind].
  pose proof (zlen_nonneg (znth L i)). replace (_ <? 0) with false by lia. unfold zlen. rewrite Nat2Z.id. now apply bread_ok.
Qed.
Lemma prep_get p L i j : prep p L -> 0 <= i < zlen L -> 0 <= j < zlen (znth L i) -> ap_get p i j = Ok (nth (Z.to_nat j) (znth L i) 0).
Proof.
  intros (T & Ht & H) Hi Hj. destruct (H i Hi) as (o & A & B & C & D & E). unfold ap_get, ap_size. assert (T0 := T). destruct T0 as (_ & _ & -> & _).
  replace (i <? _) with true by lia. cbn [assrt]. rewrite (it_get_ok _ _ _ i 1 _ T B). cbn [bind]. replace (j <? _) with true by lia. cbn [assrt].
  rewrite (holds_get _ _ _ _ A T). cbn [bind]. apply bget_cell. auto.
Qed.
Lemma prep_size p L : prep p L -> ap_size p = zlen L.
Proof. intros (T & _). apply T. Qed.
Lemma prep_size_of p L i : prep p L -> 0 <= i < zlen L -> ap_size_of p i = Ok (zlen (znth L i)).
Proof.
  intros P Hi. pose proof (prep_size _ _ P) as S. destruct P as (T & Ht & H). destruct (H i Hi) as (o & A & B & _). unfold ap_size_of. rewrite S.
  replace (i <? _) with true by lia. cbn. eapply it_get_ok; eauto.
Qed.

(* histories of a pool *)
Inductive pop := PPush (v : list Z) | PReserve (n : Z) | PCopy.
Definition pstep (o : pop) (p : apool) : res apool :=
  match o with PPush v => ap_push v p | PReserve n => ap_reserve n p | PCopy => ap_copy p end.
Definition pushed (ops : list pop) : list (list Z) := flat_map (fun o => match o with PPush v => [v] | _ => [] end) ops.
Lemma prun_ok ops : forall p L, prep p L -> exists p', foldM pstep ops p = Ok p' /\ prep p' (L ++ pushed ops).
Proof.
  induction ops as [|o ops IH]; intros p L P; [exists p; rewrite app_nil_r; auto|]. cbn [foldM].
  assert (Q : exists p1, pstep o p = Ok p1 /\ prep p1 (L ++ pushed [o])).
  { destruct o as [v|n|]; cbn [pstep].
    - destruct (prep_push v p L P) as (p1 & ? & ? & _). exists p1. cbn. auto.
    - cbn. rewrite app_nil_r. now apply prep_reserve.
    - cbn. rewrite app_nil_r. now apply prep_copy. }
  destruct Q as (p1 & -> & P1). cbn [bind]. destruct (IH _ _ P1) as (p' & -> & P'). exists p'. split; [reflexivity|].
  rewrite <- app_assoc in P'. destruct o; exact P'.
Qed.

(* concatenation *)
Lemma cat1_ok p L n a R M : prep p L -> zlen M = a -> a + zlen L <= n ->
  tab (adir R) 2 n -> 0 <= atail R -> atail R + atail p <= blen (amem R) -> (forall i, 0 <= i < a -> holds R i (znth M i)) ->
  exists R', ap_cat1 p (a, R) = Ok (a + zlen L, R') /\ tab (adir R') 2 n /\ atail R' = atail R + atail p /\ blen (amem R') = blen (amem R) /\
    forall i, 0 <= i < a + zlen L -> holds R' i (znth (M ++ L) i).
Proof.
  intros P Ha Hn T Ht Hb H. unfold ap_cat1. assert (S := prep_size _ _ P). rewrite S. destruct P as (Tp & Htp & Hp).
  pose proof (zlen_nonneg M). pose proof (zlen_nonneg L).
  set (f := fun (i : Z) (d : itab) => _).
  assert (Q : exists d, forZ (zlen L) f (adir R) = Ok d /\ tab d 2 n /\ (forall k, k < a * 2 -> cell (ibuf d) k = cell (ibuf (adir R)) k) /\
     forall i, 0 <= i < zlen L -> exists o, cell (ibuf (adir p)) (i * 2) = Some o /\ cell (ibuf d) ((a + i) * 2) = Some (atail R + o) /\
         cell (ibuf d) ((a + i) * 2 + 1) = cell (ibuf (adir p)) (i * 2 + 1)).
  { unfold forZ.
    destruct (foldM_inv (fun done d => tab d 2 n /\ (forall k, k < a * 2 -> cell (ibuf d) k = cell (ibuf (adir R)) k) /\
       forall i, In i done -> exists o, cell (ibuf (adir p)) (i * 2) = Some o /\ cell (ibuf d) ((a + i) * 2) = Some (atail R + o) /\
         cell (ibuf d) ((a + i) * 2 + 1) = cell (ibuf (adir p)) (i * 2 + 1)) f (zrange (zlen L)) (adir R)) as (d & Ed & Td & C1 & C2).
    - split; [assumption|]. split; [reflexivity|]. intros i [].
    - intros done i rest d El (Td & C1 & C2). assert (Hi : 0 <= i < zlen L) by (apply in_zrange; rewrite El; apply in_or_app; right; now left).
      assert (Nd : ~ In i done). { pose proof (zrange_nodup (zlen L)) as N. rewrite El in N. apply NoDup_remove_2 in N. intro. apply N. apply in_or_app; auto. }
      destruct (Hp i Hi) as (o & A & B & _). unfold f. rewrite (holds_get _ _ _ _ A Tp). cbn [bind].
      destruct (it_set_ok d 2 n (a + i) 0 (atail R + o) Td) as (d1 & -> & Td1 & _ & D1); [lia|lia|]. cbn [bind].
      rewrite (it_get_ok _ _ _ i 1 _ Tp B). cbn [bind].
      destruct (it_set_ok d1 2 n (a + i) 1 (zlen (znth L i)) Td1) as (d2 & -> & Td2 & _ & D2); [lia|lia|].
      exists d2. split; [reflexivity|]. split; [assumption|]. split.
      + intros k Hk. rewrite D2, D1. replace (k =? _) with false by lia. replace (k =? _) with false by lia. auto.
      + intros i' Hi'. apply in_app_or in Hi' as [Hi'|[<-|[]]].
        * destruct (C2 i' Hi') as (o' & A' & B' & C'). assert (i' <> i) by congruence. exists o'. split; [assumption|].
          rewrite !D2, !D1. replace ((a + i') * 2 =? _) with false by lia. replace ((a + i') * 2 =? _) with false by lia.
          replace ((a + i') * 2 + 1 =? _) with false by lia. replace ((a + i') * 2 + 1 =? _) with false by lia. auto.
        * exists o. split; [assumption|]. rewrite !D2, !D1, B. replace ((a + i) * 2 =? (a + i) * 2 + 1) with false by lia.
          replace ((a + i) * 2 =? (a + i) * 2 + 0) with true by lia. rewrite Z.eqb_refl. auto.
    - exists d. split; [exact Ed|]. split; [assumption|]. split; [assumption|]. intros i Hi. apply C2. now apply in_zrange. }
  destruct Q as (d & -> & Td & C1 & C2). cbn [bind].
  destruct (bcopy_ok (amem p) (atail p) (amem R) (atail R)) as (b & -> & Lb & Cb); [lia|lia|lia|]. cbn [bind]. eexists. split; [reflexivity|].
  cbn [adir amem atail]. split; [assumption|]. split; [reflexivity|]. split; [assumption|].
  intros i Hi. destruct (Z_lt_le_dec i a).
  - rewrite znth_app1 by lia. apply (holds_mono R); cbn [adir amem atail]; try lia; [apply H; lia| |].
    + intros k Hk. apply C1. lia.
    + intros k Hk. rewrite Cb. replace (atail R <=? k) with false by lia. reflexivity.
  - rewrite znth_app2 by lia. rewrite Ha. assert (Hi' : 0 <= i - a < zlen L) by lia. destruct (C2 _ Hi') as (o & A & B & C).
    destruct (Hp _ Hi') as (o' & A' & B' & C' & D' & E'). rewrite A in A'. injection A' as <-.
    replace (a + (i - a)) with i in * by lia. exists (atail R + o). cbn [adir amem atail]. rewrite B, C, B'. repeat split; auto; try lia.
    intros k Hk. rewrite Cb. replace (atail R <=? atail R + o + k) with true by lia. replace (atail R + o + k <? _) with true by lia. cbn [andb].
    replace (atail R + o + k - atail R) with (o + k) by lia. auto.
Qed.
Lemma cat_ok ps Ls : Forall2 prep ps Ls -> exists R, ap_cat ps = Ok R /\ prep R (concat Ls).
Proof.
  intro F. unfold ap_cat.
  assert (Sn : fold_right Z.add 0 (map ap_size ps) = zlen (concat Ls)).
  { clear -F. induction F as [|p L ps Ls P F IH]; [reflexivity|]. cbn [map fold_right concat]. rewrite zlen_app, (prep_size _ _ P), IH. reflexivity. }
  rewrite Sn.
  assert (Tl : forall ps Ls, Forall2 prep ps Ls -> 0 <= fold_right Z.add 0 (map atail ps)).
  { clear. induction 1 as [|p L ps Ls P F IH]; cbn; [lia|]. destruct P as (_ & ? & _). lia. }
  set (s := fold_right Z.add 0 (map atail ps)). set (n := zlen (concat Ls)).
  destruct (ap_reserve_ok s (ap_new_n n)) as (R & -> & D & E & Lm & _ & _). cbn [bind]. cbn in D, E.
  assert (G : forall ps' Ls' a R M, Forall2 prep ps' Ls' -> zlen M = a -> a + zlen (concat Ls') <= n -> tab (adir R) 2 n -> 0 <= atail R ->
     atail R + fold_right Z.add 0 (map atail ps') <= blen (amem R) -> (forall i, 0 <= i < a -> holds R i (znth M i)) ->
     exists R', foldM ap_cat1 ps' (a, R) = Ok (a + zlen (concat Ls'), R') /\ tab (adir R') 2 n /\ 0 <= atail R' <= blen (amem R') /\
       forall i, 0 <= i < a + zlen (concat Ls') -> holds R' i (znth (M ++ concat Ls') i)).
  { clearbody n s. clear -Tl. intros ps' Ls' a R M F. revert a R M. induction F as [|p L ps Ls P F IH]; intros a R M Ha Hn T Ht Hb H.
    - exists R. cbn. rewrite !Z.add_0_r, app_nil_r. cbn in Hb. repeat split; auto; try apply T; lia.
    - cbn [map fold_right concat] in *. rewrite zlen_app in *. pose proof (zlen_nonneg (concat Ls)). pose proof (Tl _ _ F).
      destruct (cat1_ok p L n a R M P Ha) as (R1 & E1 & T1 & A1 & B1 & HH1); auto; try lia.
      cbn [foldM]. rewrite E1. cbn [bind].
      assert (0 <= atail p) by apply P. pose proof (zlen_nonneg L).
      destruct (IH (a + zlen L) R1 (M ++ L)) as (R2 & E2 & T2 & A2 & HH2); auto; try lia.
      { rewrite zlen_app. lia. }
      exists R2. rewrite E2. split; [do 2 f_equal; lia|]. split; [assumption|]. split; [assumption|]. intros i Hi.
      rewrite app_assoc. apply HH2. lia. }
  destruct (G ps Ls 0 R [] F eq_refl) as (R' & -> & T' & Ht' & H'); rewrite ?D, ?E; auto; try lia.
  - apply tab_new; [lia|]. unfold n. apply zlen_nonneg.
  - cbn [bind snd]. exists R'. split; [reflexivity|]. unfold prep. auto.
Qed.

(* equality *)
Lemma list_eq_nth (u v : list Z) : zlen u = zlen v -> (forall k, 0 <= k < zlen u -> nth (Z.to_nat k) u 0 = nth (Z.to_nat k) v 0) -> u = v.
Proof.
  unfold zlen. intros H1 H2. apply (nth_ext _ _ 0 0); [lia|]. intros k Hk. specialize (H2 (Z.of_nat k) ltac:(lia)). now rewrite Nat2Z.id in H2.
Qed.
Lemma pool_eq_ok x y L M : prep x L -> prep y M -> exists b, ap_eq x y = Ok b /\ (b = true <-> L = M).
Proof.
  intros Px Py. unfold ap_eq. rewrite (prep_size _ _ Px), (prep_size _ _ Py). destruct (zlen L =? zlen M) eqn:E; cbn [negb].
  2:{ exists false. split; [reflexivity|]. split; [discriminate|]. intros ->. lia. }
  assert (EL : zlen L = zlen M) by lia. destruct Px as (Tx & Htx & Hx), Py as (Ty & Hty & Hy).
  match goal with |- exists b, ?g (Z.to_nat (zlen L)) 0 = _ /\ _ => set (go := g) end.
  assert (G : forall n i, 0 <= i -> i + Z.of_nat n = zlen L -> exists b, go n i = Ok b /\ (b = true <-> forall k, i <= k < zlen L -> znth L k = znth M k)).
  { induction n as [|n IH]; intros i Hi Hn.
    - exists true. split; [reflexivity|]. split; [|reflexivity]. intros _ k Hk. lia.
    - cbn [go]. fold go.
      destruct (Hx i) as (ox & A & B & C & D & F); [lia|]. destruct (Hy i) as (oy & A' & B' & C' & D' & F'); [lia|].
      rewrite (it_get_ok _ _ _ i 1 _ Tx B), (it_get_ok _ _ _ i 1 _ Ty B'), (holds_get _ _ _ _ A Tx), (holds_get _ _ _ _ A' Ty). cbn [bind].
      destruct (zlen (znth L i) =? zlen (znth M i)) eqn:El; cbn [negb].
      2:{ exists false. split; [reflexivity|]. split; [discriminate|]. intro H. rewrite (H i) in El by lia. lia. }
      assert (El' : zlen (znth L i) = zlen (znth M i)) by lia.
      match goal with |- context [bind (?g (Z.to_nat (zlen (znth L i))) 0) _] => set (cells := g) end.
      assert (Gc : forall k j, 0 <= j -> j + Z.of_nat k = zlen (znth L i) -> exists b, cells k j = Ok b /\
          (b = true <-> forall q, j <= q < zlen (znth L i) -> nth (Z.to_nat q) (znth L i) 0 = nth (Z.to_nat q) (znth M i) 0)).
      { induction k as [|k IHk]; intros j Hj Hk.
        - exists true. split; [reflexivity|]. split; [|reflexivity]. intros _ q Hq. lia.
        - cbn [cells]. fold cells. rewrite (bget_cell _ _ _ (F j ltac:(lia))), (bget_cell _ _ _ (F' j ltac:(lia))). cbn [bind].
          destruct (nth _ (znth L i) 0 =? _) eqn:Eq.
          + destruct (IHk (j + 1)) as (b & -> & Hb); [lia|lia|]. exists b. split; [reflexivity|]. rewrite Hb. split; intros H q Hq; [|apply H; lia].
            destruct (Z.eq_dec q j) as [->|]; [lia|apply H; lia].
          + exists false. split; [reflexivity|]. split; [discriminate|]. intro H. specialize (H j ltac:(lia)). lia. }
      destruct (Gc (Z.to_nat (zlen (znth L i))) 0) as (b & -> & Hb); [lia|pose proof (zlen_nonneg (znth L i)); lia|]. cbn [bind]. destruct b.
      + destruct (IH (i + 1)) as (r & -> & Hr); [lia|lia|]. exists r. split; [reflexivity|]. rewrite Hr. split; intros H k Hk; [|apply H; lia].
        destruct (Z.eq_dec k i) as [->|]; [|apply H; lia]. apply list_eq_nth; [assumption|]. intros q Hq. apply Hb; [reflexivity|lia].
      + exists false. split; [reflexivity|]. split; [discriminate|]. intro H. apply Hb. intros q Hq. now rewrite (H i) by lia. }
  destruct (G (Z.to_nat (zlen L)) 0) as (b & Eb & Hb); [lia|pose proof (zlen_nonneg L); lia|]. exists b. split; [exact Eb|]. rewrite Hb. split.
  - intro H. unfold zlen in *. apply (nth_ext _ _ [] []); [lia|]. intros k Hk. specialize (H (Z.of_nat k) ltac:(lia)). unfold znth in H. now rewrite Nat2Z.id in H.
  - intros ->. reflexivity.
Qed.
