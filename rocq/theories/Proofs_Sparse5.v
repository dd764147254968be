(* Conversion of the map-based sparse matrix to CSR. *)
From Coq Require Import ZArith List Bool Lia Permutation.
Import ListNotations.
From Verif Require Import Base BaseFacts Map Model_BG Model_Containers Proofs_Containers Proofs_Containers2 Proofs_Containers4 Model_Sparse Spec_Sparse Proofs_Sparse Proofs_Sparse2 Proofs_Sparse3 Proofs_Sparse4.
Open Scope Z_scope.

Definition srows (A : srm) : list (list (Z * Z)) := map (fun i => mom_row i (slists A)) (zrange (sn A)).
Lemma srows_len A : 0 <= sn A -> zlen (srows A) = sn A.
Proof. intro H. unfold zlen, srows. rewrite map_length, zrange_length. lia. Qed.
Lemma srows_row A i : 0 <= i < sn A -> rowz (srows A) i = mom_row i (slists A).
Proof. intro H. unfold rowz. apply nth_error_nth. unfold srows. apply (map_nth_error (fun i => mom_row i (slists A))). now apply zrange_nth. Qed.
Definition tot (L : mom) : Z := fold_right Z.add 0 (map (fun p => 2 * Z.of_nat (length (snd p))) L).
Lemma rows_total L : forall l, NoDup l -> 2 * fold_right Z.add 0 (map (fun i => zlen (mom_row i L)) l) <= tot L.
Proof.
  induction L as [|p L IH]; intros l N.
  - change (tot []) with 0. assert (E : fold_right Z.add 0 (map (fun i => zlen (mom_row i [])) l) = 0) by (clear N; induction l as [|i l IHl]; [reflexivity|exact IHl]). lia.
  - unfold tot. cbn [map fold_right]. fold (tot L).
    assert (H : fold_right Z.add 0 (map (fun i => zlen (mom_row i (p :: L))) l) <= Z.of_nat (length (snd p)) + fold_right Z.add 0 (map (fun i => zlen (mom_row i L)) l) /\
       (~ In (fst p) l -> fold_right Z.add 0 (map (fun i => zlen (mom_row i (p :: L))) l) = fold_right Z.add 0 (map (fun i => zlen (mom_row i L)) l))).
    { clear IH. induction l as [|i l IHl]; [cbn; split; lia|]. inversion N as [|? ? Ni Nl]; subst. destruct (IHl Nl) as [H1 H2]. cbn [map fold_right].
      assert (Er : mom_row i (p :: L) = if fst p =? i then snd p else mom_row i L). { unfold mom_row. destruct p as [a r]. cbn. rewrite Z.eqb_sym. now destruct (i =? a). }
      rewrite Er. destruct (Z.eqb_spec (fst p) i) as [E|E].
      - rewrite H2 by now rewrite E. pose proof (zlen_nonneg (mom_row i L)). unfold zlen at 1. split; [lia|]. intro K. exfalso. apply K. now left.
      - split; [lia|]. intro K. rewrite H2; [reflexivity|]. intro Hin. apply K. now right. }
    specialize (IH l N). lia.
Qed.
(* one row written out *)
Lemma put_row v : forall b o, 0 <= o -> o + 2 * zlen v <= blen b -> exists b',
  foldM (fun p st => let '(b, t) := st in do b <- bput b t (fst p); do b <- bput b (t + 1) (snd p); Ok (b, t + 2)) v (b, o) = Ok (b', o + 2 * zlen v) /\
  blen b' = blen b /\ cells b' o (flat2 v) /\ forall k, k < o -> cell b' k = cell b k.
Proof.
  induction v as [|p v IH] using rev_ind; intros b o Ho Hb.
  - exists b. cbn. unfold zlen. cbn. split; [do 2 f_equal; lia|]. split; [reflexivity|]. split; [apply cells_nil|reflexivity].
  - rewrite zlen_app in Hb. change (zlen [p]) with 1 in Hb. destruct (IH b o Ho ltac:(lia)) as (b1 & E1 & L1 & C1 & F1). rewrite foldM_app, E1. cbn [bind foldM].
    destruct p as [j w]. destruct (put_pair b1 o v j w) as (b2 & b3 & E2 & E3 & L3 & C3 & F3); [lia|lia|exact C1|]. cbn [fst snd]. rewrite E2. cbn [bind]. rewrite E3. cbn [bind].
    exists b3. rewrite zlen_app. change (zlen [(j, w)]) with 1. split; [do 2 f_equal; lia|]. split; [congruence|]. split; [exact C3|].
    intros k Hk. rewrite F3; [now apply F1|]. pose proof (zlen_nonneg v). lia.
Qed.
Lemma sr_csr_ok A : srwf A -> 0 <= sn A -> 0 <= sm A -> (forall i j v, mom_find i j (slists A) = Some v -> 0 <= i /\ 0 <= j) ->
  exists P, sr_csr A = Ok (CSR 0 0 P) /\ csr_rep (CSR (sn A) (sm A) P) (srows A).
Proof.
  intros [W Hr] Hn Hm H0. unfold sr_csr. set (n := sn A) in *. set (rows := srows A).
  destruct (it_resize_ok (adir ap_new) 2 0 n) as (d0 & Ed & Td & _); [apply prep_new|lia|]. rewrite Ed. cbn [bind].
  fold (tot (slists A)). set (t := tot (slists A)).
  assert (Et : 2 * cnt_upto rows n <= t).
  { unfold t. pose proof (rows_total (slists A) (zrange n) (zrange_nodup n)) as K. unfold cnt_upto. erewrite map_ext_in; [exact K|]. intros i Hi. apply in_zrange in Hi. unfold rows. now rewrite srows_row. }
  destruct (ap_reserve_ok t (APool [] 0 d0)) as (P & EP & DP & _ & LP & _ & _). rewrite EP. cbn [bind adir] in *.
  match goal with |- context [forZ n ?f ?s] => destruct (forZ_inv (fun i Q => tab (snd (fst Q)) 2 n /\ snd Q = 2 * cnt_upto rows i /\ blen (fst (fst Q)) = blen (amem P) /\
     forall a, 0 <= a < i -> holds (APool (fst (fst Q)) (snd Q) (snd (fst Q))) a (flat2 (rowz rows a))) n f s) as ([[b d] u] & EQ & TQ & AQ & LQ & HQ) end.
  - exact Hn.
  - cbn [fst snd]. rewrite DP. split; [exact Td|]. split; [reflexivity|]. split; [reflexivity|]. intros a Ha; lia.
  - intros i [[b d] u] Hi (TQ & AQ & LQ & HQ). cbn [fst snd] in *. destruct (it_set_ok d 2 n i 0 u TQ) as (d1 & E1 & T1 & L1 & C1); [lia|lia|]. rewrite E1. cbn [bind].
    assert (Hri : rowz rows i = mom_row i (slists A)) by (unfold rows; apply srows_row; exact Hi).
    assert (Cap : 2 * cnt_upto rows i + 2 * zlen (rowz rows i) <= blen b).
    { rewrite LQ. pose proof (cnt_upto_mono rows (i + 1) n ltac:(lia)) as Hmo. rewrite cnt_upto_succ in Hmo by lia. lia. }
    pose proof (cnt_upto_nonneg rows i) as Hc. pose proof (zlen_nonneg (rowz rows i)) as Hz.
    assert (G : exists b' d2, match mfind i (slists A) with
       | None => do d <- it_set d1 i 1 0; Ok (b, d, u)
       | Some v => do d <- it_set d1 i 1 (2 * Z.of_nat (length v));
                   do ' (b, t) <- foldM (fun p st => let '(b, t) := st in do b <- bput b t (fst p); do b <- bput b (t + 1) (snd p); Ok (b, t + 2)) v (b, u); Ok (b, d, t)
       end = Ok (b', d2, u + 2 * zlen (rowz rows i)) /\ it_set d1 i 1 (2 * zlen (rowz rows i)) = Ok d2 /\ blen b' = blen b /\ cells b' u (flat2 (rowz rows i)) /\ forall k, k < u -> cell b' k = cell b k).
    { rewrite Hri in *. unfold mom_row in *. destruct (it_set_ok d1 2 n i 1 (2 * zlen (match mfind i (slists A) with Some r => r | None => [] end)) T1) as (d2 & E2 & _); [lia|lia|]. destruct (mfind i (slists A)) as [v|].
      - destruct (put_row v b u) as (b' & Eb & Lb & Cb & Fb); [lia|lia|]. exists b', d2. unfold zlen in E2 at 1. rewrite E2. cbn [bind]. rewrite Eb. cbn [bind]. now repeat split.
      - exists b, d2. change (2 * zlen []) with 0 in *. rewrite E2. cbn [bind]. rewrite Z.add_0_r. split; [reflexivity|]. split; [reflexivity|]. split; [reflexivity|]. split; [apply cells_nil|reflexivity]. }
    destruct G as (b' & d2 & EG & E2 & Lb & Cb & Fb). exists (b', d2, u + 2 * zlen (rowz rows i)). split; [exact EG|]. cbn [fst snd].
    destruct (it_set_ok d1 2 n i 1 (2 * zlen (rowz rows i)) T1) as (d2' & E2' & T2 & L2 & C2); [lia|lia|]. rewrite E2 in E2'. injection E2' as <-.
    split; [exact T2|]. split; [rewrite AQ, cnt_upto_succ by lia; lia|]. split; [congruence|].
    intros a Ha. apply holds_cells. cbn [adir atail amem]. destruct (Z.eq_dec a i) as [-> | Na].
    + exists u. rewrite C2, C1, zlen_flat2. destruct (Z.eqb_spec (i * 2) (i * 2 + 1)); [lia|]. rewrite Z.add_0_r, Z.eqb_refl. split; [reflexivity|].
      rewrite C2, Z.eqb_refl. split; [reflexivity|]. split; [lia|]. split; [lia|]. exact Cb.
    + destruct (HQ a) as (o & H1 & H2 & H3 & H4 & H5); [lia|]. cbn [adir atail amem] in *. exists o. rewrite !C2, !C1, !Z.add_0_r.
      destruct (Z.eqb_spec (a * 2) (i * 2 + 1)); [lia|]. destruct (Z.eqb_spec (a * 2) (i * 2)); [lia|].
      destruct (Z.eqb_spec (a * 2 + 1) (i * 2 + 1)); [lia|]. destruct (Z.eqb_spec (a * 2 + 1) (i * 2)); [lia|]. split; [exact H1|]. split; [exact H2|]. split; [exact H3|].
      split; [lia|]. apply (cells_ext b); [exact H5|]. intros k0 Hk0. apply Fb. lia.
  - cbn [fst snd] in *. rewrite EQ. cbn [bind]. eexists. split; [reflexivity|]. unfold csr_rep. cbn [cn cm cpool]. fold n rows.
    assert (Lr : zlen rows = n) by (apply srows_len; exact Hn). rewrite Lr. split; [reflexivity|]. split; [exact Hm|]. split.
    + split; [unfold zlen in *; rewrite map_length, Lr; exact TQ|]. cbn [atail amem]. split.
      * rewrite AQ, LQ. pose proof (cnt_upto_nonneg rows n). lia.
      * unfold zlen at 1. rewrite map_length. fold (zlen rows). rewrite Lr. intros i Hi. rewrite rowz_nth by lia. now apply HQ.
    + cbn [atail]. split; [rewrite concat_elems_zlen, Lr, AQ; unfold cnt_upto; lia|]. apply Forall_forall. intros r Hrr. unfold rows, srows in Hrr. apply in_map_iff in Hrr as (i & <- & Hi).
      assert (Wr : mwf (mom_row i (slists A))). { unfold mom_row. destruct W as [_ W2]. destruct (mfind i (slists A)) as [r|] eqn:E; [now apply (W2 i)|constructor]. }
      split; [exact Wr|]. apply Forall_forall. intros [j v] Hp. cbn. assert (F : mom_find i j (slists A) = Some v). { unfold mom_find. now apply mfind_iff. }
      specialize (H0 _ _ _ F). specialize (Hr _ _ _ F). lia.
Qed.
Lemma srows_elems A : srwf A -> (forall i j v, mom_find i j (slists A) = Some v -> 0 <= i /\ 0 <= j) -> 0 <= sn A -> Permutation (elems (srows A)) (sr_calls A).
Proof.
  intros [W Hr] H0 Hn. apply NoDup_Permutation.
  - eapply NoDup_map_inv. apply elems_nodup_rows. apply Forall_forall. intros r Hrr. unfold srows in Hrr. apply in_map_iff in Hrr as (i & <- & Hi).
    unfold mom_row. destruct W as [_ W2]. destruct (mfind i (slists A)) as [r|] eqn:E; [now apply (W2 i)|constructor].
  - eapply NoDup_map_inv. apply mom_calls_nodup, W.
  - intros [[i j] v]. unfold sr_calls. rewrite mom_calls_in by exact W. rewrite in_elems, srows_len by exact Hn.
    assert (Wr : mwf (mom_row i (slists A))). { unfold mom_row. destruct W as [_ W2]. destruct (mfind i (slists A)) as [r|] eqn:E; [now apply (W2 i)|constructor]. }
    split.
    + intros [Hi Hp]. rewrite srows_row in Hp by exact Hi. unfold mom_find. now apply mfind_iff.
    + intro F. pose proof (H0 _ _ _ F). pose proof (Hr _ _ _ F). split; [lia|]. rewrite srows_row by lia. unfold mom_find in F. now apply mfind_in in F.
Qed.
