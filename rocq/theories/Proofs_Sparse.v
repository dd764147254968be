(* CSR matrices: conversion from dense. *)
From Coq Require Import ZArith List Bool Lia Permutation.
Import ListNotations.
From Verif Require Import Base BaseFacts Map Model_BG Model_Containers Proofs_Containers Proofs_Containers2 Proofs_Containers4 Model_Sparse Spec_Sparse.
Open Scope Z_scope.

Lemma forZ_inv {S} (P : Z -> S -> Prop) n (f : Z -> S -> res S) s : 0 <= n -> P 0 s ->
  (forall i s, 0 <= i < n -> P i s -> exists s', f i s = Ok s' /\ P (i + 1) s') -> exists s', forZ n f s = Ok s' /\ P n s'.
Proof.
  intros Hn H0 Hs.
  enough (H : forall k : nat, Z.of_nat k <= n -> exists s', forZ (Z.of_nat k) f s = Ok s' /\ P (Z.of_nat k) s').
  { destruct (H (Z.to_nat n)) as (s' & E & Ps); [lia|]. rewrite Z2Nat.id in E, Ps by lia. now exists s'. }
  induction k as [|k IH]; intro Hk; [now exists s|]. destruct IH as (s1 & E1 & P1); [lia|].
  destruct (Hs (Z.of_nat k) s1) as (s2 & E2 & P2); [lia|assumption|]. exists s2. unfold forZ in *.
  replace (Z.of_nat (Datatypes.S k)) with (Z.of_nat k + 1) by lia. rewrite zrange_succ by lia. rewrite foldM_app, E1. cbn. rewrite E2. cbn. now split.
Qed.

(* consecutive cells *)
Definition cells (b : buf) (o : Z) (v : list Z) : Prop := forall k, 0 <= k < zlen v -> cell b (o + k) = Some (nth (Z.to_nat k) v 0).
Lemma cells_nil b o : cells b o [].
Proof. intros k Hk. unfold zlen in Hk. cbn in Hk. lia. Qed.
Lemma cells_app b o u v : cells b o (u ++ v) <-> cells b o u /\ cells b (o + zlen u) v.
Proof.
  unfold cells. split.
  - intro H. split; intros k Hk.
    + rewrite H by (rewrite zlen_app; pose proof (zlen_nonneg v); lia). now rewrite app_nth1 by (unfold zlen in Hk; lia).
    + replace (o + zlen u + k) with (o + (zlen u + k)) by lia. rewrite H by (rewrite zlen_app; pose proof (zlen_nonneg u); lia).
      rewrite app_nth2 by (unfold zlen in *; lia). do 2 f_equal. unfold zlen in *. lia.
  - intros [Hu Hv] k Hk. rewrite zlen_app in Hk. destruct (Z_lt_le_dec k (zlen u)) as [L|L].
    + rewrite Hu by lia. now rewrite app_nth1 by (unfold zlen in L; lia).
    + replace (o + k) with (o + zlen u + (k - zlen u)) by lia. rewrite Hv by lia. rewrite app_nth2 by (unfold zlen in L; lia). do 2 f_equal. unfold zlen in *. lia.
Qed.
Lemma cells_ext b b' o v : cells b o v -> (forall k, o <= k < o + zlen v -> cell b' k = cell b k) -> cells b' o v.
Proof. intros H E k Hk. rewrite E by lia. now apply H. Qed.
Lemma zlen_flat2 r : zlen (flat2 r) = 2 * zlen r.
Proof. unfold zlen. induction r as [|p r IH]; [reflexivity|]. cbn [flat2 flat_map app length] in *. fold (flat2 r). lia. Qed.
Lemma flat2_app a b : flat2 (a ++ b) = flat2 a ++ flat2 b.
Proof. apply flat_map_app. Qed.
(* writing one more pair at the end of a row *)
Lemma put_pair b o r j v : 0 <= o -> o + 2 * zlen r + 2 <= blen b -> cells b o (flat2 r) -> exists b1 b2,
  bput b (o + 2 * zlen r) j = Ok b1 /\ bput b1 (o + 2 * zlen r + 1) v = Ok b2 /\ blen b2 = blen b /\ cells b2 o (flat2 (r ++ [(j, v)])) /\
  forall k, ~ (o + 2 * zlen r <= k < o + 2 * zlen r + 2) -> cell b2 k = cell b k.
Proof.
  intros Ho Hb C. pose proof (zlen_nonneg r) as Hr. destruct (bput_ok b (o + 2 * zlen r) j) as (b1 & E1 & L1 & C1); [lia|].
  destruct (bput_ok b1 (o + 2 * zlen r + 1) v) as (b2 & E2 & L2 & C2); [lia|].
  exists b1, b2. split; [exact E1|]. split; [exact E2|]. split; [congruence|].
  assert (F : forall k, ~ (o + 2 * zlen r <= k < o + 2 * zlen r + 2) -> cell b2 k = cell b k).
  { intros k Hk. rewrite C2, C1. destruct (Z.eqb_spec k (o + 2 * zlen r + 1)); [lia|]. destruct (Z.eqb_spec k (o + 2 * zlen r)); [lia|reflexivity]. }
  split; [|exact F]. rewrite flat2_app. apply cells_app. split.
  - apply (cells_ext b); [exact C|]. rewrite zlen_flat2. intros k Hk. apply F. lia.
  - rewrite zlen_flat2. intros k Hk. unfold zlen in Hk. cbn in Hk. rewrite C2, C1.
    assert (Hc : k = 0 \/ k = 1) by lia. destruct Hc as [-> | ->].
    + rewrite Z.add_0_r. destruct (Z.eqb_spec (o + 2 * zlen r) (o + 2 * zlen r + 1)); [lia|]. now rewrite Z.eqb_refl.
    + now rewrite Z.eqb_refl.
Qed.

Lemma rowz_nth rows i : 0 <= i < zlen rows -> znth (map flat2 rows) i = flat2 (rowz rows i).
Proof. intro H. unfold znth, rowz. change [] with (flat2 []) at 1. now rewrite map_nth. Qed.
Lemma holds_cells p i v : holds p i v <-> exists o, cell (ibuf (adir p)) (i * 2) = Some o /\ cell (ibuf (adir p)) (i * 2 + 1) = Some (zlen v) /\
  0 <= o /\ o + zlen v <= atail p /\ cells (amem p) o v.
Proof. reflexivity. Qed.

Definition nzrow (m : Z) (x : Z -> Z -> Z) (i : Z) : list (Z * Z) := map (fun j => (j, x i j)) (filter (fun j => negb (x i j =? 0)) (zrange m)).
Definition drows (n m : Z) (x : Z -> Z -> Z) : list (list (Z * Z)) := map (nzrow m x) (zrange n).
Lemma drows_len n m x : 0 <= n -> zlen (drows n m x) = n.
Proof. intro H. unfold zlen, drows. rewrite map_length, zrange_length. lia. Qed.
Lemma drows_row n m x i : 0 <= i < n -> rowz (drows n m x) i = nzrow m x i.
Proof.
  intro H. unfold rowz. apply nth_error_nth. unfold drows. apply map_nth_error. now apply zrange_nth.
Qed.
Lemma concat_elems_zlen rows : zlen (elems rows) = fold_right Z.add 0 (map (fun i => zlen (rowz rows i)) (zrange (zlen rows))).
Proof.
  unfold elems. induction (zrange (zlen rows)) as [|i l IH]; [reflexivity|]. cbn [map concat fold_right]. rewrite zlen_app, IH. f_equal. unfold zlen, row_elems. now rewrite map_length.
Qed.
(* the number of elements stored in the first k rows *)
Definition cnt_upto (rows : list (list (Z * Z))) (k : Z) : Z := fold_right Z.add 0 (map (fun i => zlen (rowz rows i)) (zrange k)).
Lemma cnt_upto_succ rows k : 0 <= k -> cnt_upto rows (k + 1) = cnt_upto rows k + zlen (rowz rows k).
Proof.
  intro H. unfold cnt_upto. rewrite zrange_succ, map_app by exact H. cbn [map]. induction (map (fun i => zlen (rowz rows i)) (zrange k)) as [|a l IH]; cbn [app fold_right]; lia.
Qed.
Lemma cnt_upto_nonneg rows k : 0 <= cnt_upto rows k.
Proof. unfold cnt_upto. induction (zrange k) as [|a l IH]; cbn [map fold_right]; [lia|]. pose proof (zlen_nonneg (rowz rows a)). lia. Qed.
Lemma cnt_upto_mono rows k k' : 0 <= k <= k' -> cnt_upto rows k <= cnt_upto rows k'.
Proof.
  intros [H1 H2]. replace k' with (k + Z.of_nat (Z.to_nat (k' - k))) by lia. induction (Z.to_nat (k' - k)) as [|d IH]; [rewrite Z.add_0_r; lia|].
  replace (k + Z.of_nat (S d)) with (k + Z.of_nat d + 1) by lia. rewrite cnt_upto_succ by lia. pose proof (zlen_nonneg (rowz rows (k + Z.of_nat d))). lia.
Qed.
Lemma flat_map_len {A B} (f : A -> list B) l : Z.of_nat (length (flat_map f l)) = fold_right Z.add 0 (map (fun a => zlen (f a)) l).
Proof. induction l as [|a l IH]; [reflexivity|]. cbn [flat_map map fold_right]. rewrite app_length, Nat2Z.inj_add, IH. reflexivity. Qed.

Lemma csr_of_dense_ok n m x : 0 <= n -> 0 <= m -> exists A, csr_of_dense n m x = Ok A /\ csr_rep A (drows n m x) /\ cm A = m.
Proof.
  intros Hn Hm. unfold csr_of_dense. set (rows := drows n m x).
  destruct (it_resize_ok (adir (ap_new_n n)) 2 n n) as (d0 & Ed & Td & _); [apply tab_new; lia|lia|]. rewrite Ed. cbn [bind].
  set (t := Z.of_nat (length _)). assert (Et : t = cnt_upto rows n).
  { unfold t. rewrite flat_map_len. unfold cnt_upto. f_equal. apply map_ext_in. intros i Hi. apply in_zrange in Hi. unfold rows. rewrite drows_row by exact Hi. unfold nzrow, zlen. now rewrite map_length. }
  destruct (ap_reserve_ok (2 * t) (APool (amem (ap_new_n n)) (atail (ap_new_n n)) d0)) as (P & EP & DP & _ & LP & _ & _). rewrite EP. cbn [bind adir] in *.
  match goal with |- context [forZ n ?f ?s] => destruct (forZ_inv (fun i Q => tab (adir Q) 2 n /\ atail Q = 2 * cnt_upto rows i /\ blen (amem Q) = blen (amem P) /\
     forall a, 0 <= a < i -> holds Q a (flat2 (rowz rows a))) n f s) as (Q & EQ & TQ & AQ & LQ & HQ) end.
  - exact Hn.
  - cbn [adir atail amem]. rewrite DP. split; [exact Td|]. split; [reflexivity|]. split; [reflexivity|]. intros a Ha; lia.
  - intros i Q Hi (TQ & AQ & LQ & HQ). destruct (it_set_ok (adir Q) 2 n i 0 (atail Q) TQ) as (d1 & E1 & T1 & L1 & C1); [lia|lia|]. rewrite E1. cbn [bind].
    assert (Hr : rowz rows i = nzrow m x i) by (unfold rows; apply drows_row; lia).
    assert (Cap : 2 * cnt_upto rows i + 2 * zlen (nzrow m x i) <= blen (amem Q)).
    { rewrite LQ, <- Hr. pose proof (cnt_upto_mono rows (i + 1) n ltac:(lia)) as Hmo. rewrite cnt_upto_succ in Hmo by lia. lia. }
    pose proof (cnt_upto_nonneg rows i) as Hc.
    match goal with |- context [forZ m ?f ?s] => destruct (forZ_inv (fun j st => snd st = zlen (nzrow j x i) /\ blen (fst st) = blen (amem Q) /\
       cells (fst st) (atail Q) (flat2 (nzrow j x i)) /\ forall k, k < atail Q -> cell (fst st) k = cell (amem Q) k) m f s) as ((b & k) & Eb & Ek & Lb & Cb & Fb) end.
    + exact Hm.
    + cbn [fst snd]. split; [reflexivity|]. split; [reflexivity|]. split; [apply cells_nil|]. reflexivity.
    + intros j (b & k) Hj (Ek & Lb & Cb & Fb). cbn [fst snd] in *.
      assert (Es : nzrow (j + 1) x i = nzrow j x i ++ (if x i j =? 0 then [] else [(j, x i j)])).
      { unfold nzrow. rewrite zrange_succ, filter_app, map_app by lia. f_equal. cbn [filter]. now destruct (x i j =? 0). }
      assert (Ln : zlen (nzrow (j + 1) x i) <= zlen (nzrow m x i)).
      { assert (Em : zrange m = zrange (j + 1) ++ map (Z.add (j + 1)) (zrange (m - (j + 1)))) by (rewrite <- zrange_app by lia; f_equal; lia). unfold nzrow. rewrite Em, filter_app, map_app, zlen_app. match goal with |- _ <= _ + zlen ?l => pose proof (zlen_nonneg l) end. lia. }
      destruct (x i j =? 0) eqn:E0.
      * exists (b, k). split; [reflexivity|]. rewrite Es, app_nil_r. cbn [fst snd]. now repeat split.
      * rewrite Es, zlen_app in Ln. unfold zlen at 2 in Ln. cbn in Ln.
        destruct (put_pair b (atail Q) (nzrow j x i) j (x i j)) as (b1 & b2 & Eb1 & Eb2 & Lb2 & Cb2 & Fb2); [lia|lia|exact Cb|].
        exists (b2, k + 1). rewrite Ek, Eb1. cbn [bind]. rewrite Eb2. cbn [bind fst snd]. split; [reflexivity|]. rewrite Es. split; [rewrite zlen_app; unfold zlen at 3; cbn; lia|].
        split; [congruence|]. split; [exact Cb2|]. intros k0 Hk0. rewrite Fb2; [now apply Fb|]. pose proof (zlen_nonneg (nzrow j x i)). lia.
    + rewrite Eb. cbn [bind fst snd] in *. destruct (it_set_ok d1 2 n i 1 (2 * k) T1) as (d2 & E2 & T2 & L2 & C2); [lia|lia|]. rewrite E2. cbn [bind].
      eexists. split; [reflexivity|]. cbn [adir atail amem]. split; [exact T2|]. split; [rewrite AQ, Ek, cnt_upto_succ, Hr by lia; lia|]. split; [congruence|].
      intros a Ha. apply holds_cells. cbn [adir atail amem]. destruct (Z.eq_dec a i) as [-> | Na].
      * exists (atail Q). rewrite Hr, C2, C1, zlen_flat2. destruct (Z.eqb_spec (i * 2) (i * 2 + 1)); [lia|]. rewrite Z.add_0_r, Z.eqb_refl. split; [reflexivity|].
        rewrite C2, Z.eqb_refl, Ek. split; [reflexivity|]. split; [lia|]. split; [lia|]. exact Cb.
      * destruct (HQ a) as (o & H1 & H2 & H3 & H4 & H5); [lia|]. exists o. rewrite !C2, !C1, !Z.add_0_r.
        destruct (Z.eqb_spec (a * 2) (i * 2 + 1)); [lia|]. destruct (Z.eqb_spec (a * 2) (i * 2)); [lia|].
        destruct (Z.eqb_spec (a * 2 + 1) (i * 2 + 1)); [lia|]. destruct (Z.eqb_spec (a * 2 + 1) (i * 2)); [lia|]. split; [exact H1|]. split; [exact H2|]. split; [exact H3|].
        pose proof (zlen_nonneg (nzrow m x i)). split; [lia|]. apply (cells_ext (amem Q)); [exact H5|]. intros k0 Hk0. apply Fb. lia.
  - rewrite EQ. cbn [bind]. eexists. split; [reflexivity|]. split; [|reflexivity]. unfold csr_rep. cbn [cn cm cpool]. fold rows.
    assert (Lr : zlen rows = n) by (apply drows_len; exact Hn). rewrite Lr. split; [reflexivity|]. split; [exact Hm|]. split.
    + split; [unfold zlen in *; rewrite map_length, Lr; exact TQ|]. split.
      * rewrite AQ, LQ. pose proof (cnt_upto_nonneg rows n). lia.
      * unfold zlen at 1. rewrite map_length. fold (zlen rows). rewrite Lr. intros i Hi. rewrite rowz_nth by lia. now apply HQ.
    + split; [rewrite concat_elems_zlen, Lr, AQ; unfold cnt_upto; lia|]. unfold rows, drows. apply Forall_forall. intros r Hr. apply in_map_iff in Hr as (i & <- & Hi).
      unfold nzrow. split.
      * rewrite map_map. cbn. rewrite map_id. apply NoDup_filter, zrange_nodup.
      * apply Forall_forall. intros p Hp. apply in_map_iff in Hp as (j & <- & Hj). apply filter_In in Hj as [Hj _]. now apply in_zrange in Hj.
Qed.
