(* Block sparse matrices: applying them. *)
From Coq Require Import ZArith List Bool Lia Permutation.
Import ListNotations.
From Verif Require Import Base BaseFacts Map Model_Containers Proofs_Containers Proofs_Containers2 Proofs_Containers4 Model_Index Model_View Model_Tensor
  Spec_Index Spec_View Spec_Tensor Proofs_Index Proofs_View Proofs_View2 Proofs_Tensor Proofs_Tensor2 Proofs_Tensor3 Model_Block.
Open Scope Z_scope.

(* ---- the offset table *)
Lemma offsets_snoc l p : offsets_of (l ++ [p]) = (dm_set (fst p) (snd p) (snd (offsets_of l)) (fst (offsets_of l)), snd (offsets_of l) + 1).
Proof. unfold offsets_of. rewrite fold_left_app. cbn [fold_left]. destruct (fold_left _ l (dm_new, 0)); reflexivity. Qed.
Lemma offsets_count l : snd (offsets_of l) = zlen l.
Proof.
  induction l as [|p l IH] using rev_ind; [reflexivity|]. rewrite offsets_snoc. cbn [snd]. rewrite IH, zlen_app. reflexivity.
Qed.
Definition otab (l : list (Z * Z)) : mom := Model_Containers.rmap (fst (offsets_of l)).
Lemma otab_snoc l p : otab (l ++ [p]) = mom_set (fst p) (snd p) (zlen l) (otab l).
Proof. unfold otab. rewrite offsets_snoc. cbn [fst Model_Containers.rmap dm_set]. now rewrite offsets_count. Qed.
Lemma otab_wf l : momwf (otab l) /\ rows_nonempty (otab l).
Proof.
  induction l as [|p l [IH1 IH2]] using rev_ind; [split; [split; [constructor|intros i r E; discriminate]|intros i r E; discriminate]|].
  rewrite otab_snoc. split; [now apply mom_set_wf|]. intros i r E. unfold mom_set in E. rewrite mfind_set in E. destruct (fst p =? i); [|now apply (IH2 i)]. injection E as <-.
  destruct (mom_row (fst p) (otab l)) as [|[k v] q]; cbn [mset]; [discriminate|]. destruct (k =? snd p); discriminate.
Qed.
Lemma otab_some l i j t : mom_find i j (otab l) = Some t -> 0 <= t < zlen l /\ nth_error l (Z.to_nat t) = Some (i, j).
Proof.
  induction l as [|p l IH] using rev_ind; [discriminate|]. rewrite otab_snoc, mom_find_set. destruct ((fst p =? i) && (snd p =? j)) eqn:E.
  - intros [= <-]. apply andb_true_iff in E as [E1 E2]. apply Z.eqb_eq in E1, E2. rewrite zlen_app. unfold zlen at 2 3. cbn. split; [pose proof (zlen_nonneg l); lia|].
    rewrite nth_error_app2 by (unfold zlen; lia). replace (Z.to_nat (zlen l) - length l)%nat with O by (unfold zlen; lia). cbn. destruct p. cbn in *. now subst.
  - intro H. apply IH in H as [H1 H2]. rewrite zlen_app. unfold zlen at 2. cbn. split; [lia|]. rewrite nth_error_app1; [exact H2|]. unfold zlen in H1. lia.
Qed.
Lemma otab_none l i j : mom_find i j (otab l) = None <-> ~ In (i, j) l.
Proof.
  induction l as [|p l IH] using rev_ind; [split; [intros _ []|reflexivity]|]. rewrite otab_snoc, mom_find_set, in_app_iff. destruct ((fst p =? i) && (snd p =? j)) eqn:E.
  - apply andb_true_iff in E as [E1 E2]. apply Z.eqb_eq in E1, E2. split; [discriminate|]. intro H. exfalso. apply H. right. left. destruct p. cbn in *. now subst.
  - rewrite IH. split; [|tauto]. intros H [H1|[H1|[]]]; [now apply H|]. subst p. cbn in E. now rewrite !Z.eqb_refl in E.
Qed.

(* ---- views *)
Lemma rows_ok v i n d0 d1 : vwf v -> vdims v = [d0; d1] -> 0 <= i -> 0 <= n -> i + n <= d0 ->
  exists v', rows i n v = Ok v' /\ vwf v' /\ vdims v' = [n; d1] /\ forall a c, vaddr v' [a; c] = vaddr v [i + a; c].
Proof.
  intros W E Hi Hn Hd. destruct v as [b o ds ss]. cbn in E. subst ds. pose proof W as [L Nn]. cbn in L. destruct ss as [|s0 [|s1 [|]]]; try discriminate.
  unfold rows. cbn [vdims vstr]. replace (i + n <=? d0) with true by (symmetry; apply Z.leb_le; lia). cbn [assrt]. eexists. split; [reflexivity|]. inversion Nn as [|? ? N0 Nn']; subst.
  split; [split; [reflexivity|constructor; assumption]|]. split; [reflexivity|]. intros a c. rewrite !vaddr_ok by reflexivity. cbn [vblk voff vstr]. do 2 f_equal. cbn [dot]. lia.
Qed.
Lemma slice0_ok v t d0 d1 d2 : vwf v -> vdims v = [d0; d1; d2] -> exists v', slice 0 t v = Ok v' /\ vwf v' /\ vdims v' = [d1; d2] /\ forall a c, vaddr v' [a; c] = vaddr v [t; a; c].
Proof.
  intros W E. destruct v as [b o ds ss]. cbn in E. subst ds. pose proof W as [L Nn]. cbn in L. destruct ss as [|s0 [|s1 [|s2 [|]]]]; try discriminate.
  unfold slice. cbn. eexists. split; [reflexivity|]. inversion Nn as [|? ? N0 Nn']; subst. split; [split; [reflexivity|exact Nn']|]. split; [reflexivity|].
  intros a c. rewrite !vaddr_ok by reflexivity. cbn [vblk voff vstr]. do 2 f_equal. cbn [dot]. lia.
Qed.
Lemma transp2_ok v d0 d1 : vwf v -> vdims v = [d0; d1] -> exists v', transp v = Ok v' /\ vwf v' /\ vdims v' = [d1; d0] /\ forall a c, vaddr v' [a; c] = vaddr v [c; a].
Proof.
  intros W E. destruct (C07_transp_l v W) as (v' & Et & _ & _ & Hd & Ha); [rewrite E; cbn; lia|]. exists v'. split; [exact Et|]. split; [apply (transp_embeds v v' W Et)|].
  split; [apply (Hd []); exact E|]. intros a c. apply (Ha []). rewrite E. reflexivity.
Qed.

Section Step.
Context {R : cring}.
Notation memR := (mem (car R)).
Add Ring Rr : (cth R).
Variables (r x mx : view) (N C M : Z).
Hypothesis Wr : vwf r. Hypothesis Er : vdims r = [N; C]. Hypothesis Wx : vwf x. Hypothesis Ex : vdims x = [M; C].
Hypothesis Dr : distinct_cells r. Hypothesis Dx : disjoint_views r x. Hypothesis Dm : disjoint_views r mx.

Lemma mp_step rr b xx bn bm ro xo (m : memR) : 0 <= bn -> 0 <= bm -> 0 <= C -> vwf rr -> vdims rr = [bn; C] -> vwf b -> vdims b = [bn; bm] -> vwf xx -> vdims xx = [bm; C] ->
  (forall a c, vaddr rr [a; c] = vaddr r [ro + a; c]) -> (forall a c, vaddr xx [a; c] = vaddr x [xo + a; c]) ->
  (forall a k, 0 <= a < bn -> 0 <= k < bm -> exists ix, in_range ix (vdims mx) /\ vaddr b [a; k] = vaddr mx ix) ->
  0 <= ro -> ro + bn <= N -> 0 <= xo -> xo + bm <= M -> readable m r -> readable m x -> readable m mx ->
  exists m', tv_add_mprod rr b xx m = Ok m' /\ untouched m m' r /\
    (forall a c, 0 <= a < bn -> 0 <= c < C -> elem m' r [ro + a; c] = Some (cadd (elem0 m r [ro + a; c]) (rsum (map (fun k => cmul (elem0 m b [a; k]) (elem0 m x [xo + k; c])) (zrange bm))))) /\
    (forall I c, 0 <= I < N -> 0 <= c < C -> ~ (ro <= I < ro + bn) -> elem m' r [I; c] = elem m r [I; c]).
Proof.
  intros Hbn Hbm HC Wrr Err Wb Eb Wxx Exx Arr Axx Ab H1 H2 H3 H4 Rr Rx Rm.
  assert (Prr : forall ix, in_range ix (vdims rr) -> exists jx, in_range jx (vdims r) /\ vaddr rr ix = vaddr r jx).
  { intros ix Hix. rewrite Err in Hix. apply in_range_2_inv in Hix as (a & c & -> & Ha & Hc). exists [ro + a; c]. rewrite Er. split; [apply in_range_2; lia|apply Arr]. }
  assert (Pxx : forall ix, in_range ix (vdims xx) -> exists jx, in_range jx (vdims x) /\ vaddr xx ix = vaddr x jx).
  { intros ix Hix. rewrite Exx in Hix. apply in_range_2_inv in Hix as (a & c & -> & Ha & Hc). exists [xo + a; c]. rewrite Ex. split; [apply in_range_2; lia|apply Axx]. }
  assert (Pb : forall ix, in_range ix (vdims b) -> exists jx, in_range jx (vdims mx) /\ vaddr b ix = vaddr mx jx).
  { intros ix Hix. rewrite Eb in Hix. apply in_range_2_inv in Hix as (a & c & -> & Ha & Hc). now apply Ab. }
  destruct (mprod_ok rr b xx bn bm C m Wrr Wb Wxx Err Eb Exx) as (m' & E & V & U).
  - intros ix jx Hix Hjx Ea. rewrite Err in Hix, Hjx. apply in_range_2_inv in Hix as (a & c & -> & Ha & Hc). apply in_range_2_inv in Hjx as (a' & c' & -> & Ha' & Hc').
    rewrite !Arr in Ea. apply Dr in Ea; [injection Ea as E1 ->; f_equal; lia|rewrite Er; apply in_range_2; lia|rewrite Er; apply in_range_2; lia].
  - intros ix Hix. destruct (Prr ix Hix) as (jx & Hj & Ea). unfold elem. rewrite Ea. now apply Rr.
  - intros ix Hix. destruct (Pb ix Hix) as (jx & Hj & Ea). unfold elem. rewrite Ea. now apply Rm.
  - intros ix Hix. destruct (Pxx ix Hix) as (jx & Hj & Ea). unfold elem. rewrite Ea. now apply Rx.
  - intros ix jx Hi Hj. destruct (Prr ix Hi) as (ix' & Hi' & ->). destruct (Pb jx Hj) as (jx' & Hj' & ->). now apply Dm.
  - intros ix jx Hi Hj. destruct (Prr ix Hi) as (ix' & Hi' & ->). destruct (Pxx jx Hj) as (jx' & Hj' & ->). now apply Dx.
  - exists m'. split; [exact E|]. split; [|split].
    + intros bb aa Hn. apply U. intros ix Hix Ea. destruct (Prr ix Hix) as (jx & Hj & Ej). apply (Hn jx Hj). congruence.
    + intros a c Ha Hc. assert (Hin : in_range [ro + a; c] (vdims r)) by (rewrite Er; apply in_range_2; lia). unfold elem. rewrite <- Arr. fold (elem m' rr [a; c]).
      rewrite (V a c (elem0 m r [ro + a; c]) Ha Hc).
      * f_equal. f_equal. apply rsum_ext. intros k Hk. f_equal. unfold elem0, elem. now rewrite Axx.
      * unfold elem. rewrite Arr. fold (elem m r [ro + a; c]). now apply readable_elem.
    + intros I c HI Hc Hn. unfold elem. destruct (vaddr r [I; c]) as [[bb aa]| |] eqn:Ea; [|reflexivity|reflexivity]. apply U. intros ix Hix Ei. rewrite Err in Hix. apply in_range_2_inv in Hix as (a & c' & -> & Ha & Hc').
      rewrite Arr, <- Ea in Ei. apply Dr in Ei; [|rewrite Er; apply in_range_2; lia|rewrite Er; apply in_range_2; lia]. injection Ei as E1 _. lia.
Qed.

Lemma rsum_one (a : R) : rsum [a] = a.
Proof. unfold rsum. cbn. ring. Qed.
(* a whole run of blocks: each call adds, at the rows of its block, the block times its segment *)
Lemma blocks_ok (bn bm : Z) (roff xoff : Z * Z * Z -> Z) (mv : Z * Z * Z -> Z -> Z -> list Z) (step : Z * Z * Z -> memR -> res memR) (calls : list (Z * Z * Z)) (m0 : memR) :
  0 <= bn -> readable m0 r -> readable m0 x -> readable m0 mx ->
  (forall c a k, In c calls -> 0 <= a < bn -> 0 <= k < bm -> in_range (mv c a k) (vdims mx)) ->
  (forall c, In c calls -> 0 <= roff c /\ roff c + bn <= N /\ 0 <= xoff c /\ xoff c + bm <= M) ->
  (forall c m, In c calls -> readable m r -> readable m x -> readable m mx -> exists m', step c m = Ok m' /\ untouched m m' r /\
    (forall a e, 0 <= a < bn -> 0 <= e < C -> elem m' r [roff c + a; e] = Some (cadd (elem0 m r [roff c + a; e]) (rsum (map (fun k => cmul (elem0 m mx (mv c a k)) (elem0 m x [xoff c + k; e])) (zrange bm))))) /\
    (forall I e, 0 <= I < N -> 0 <= e < C -> ~ (roff c <= I < roff c + bn) -> elem m' r [I; e] = elem m r [I; e])) ->
  exists m', foldM step calls m0 = Ok m' /\ untouched m0 m' r /\
    forall I e, 0 <= I < N -> 0 <= e < C -> elem m' r [I; e] = Some (cadd (elem0 m0 r [I; e])
      (rsum (map (fun c => if (roff c <=? I) && (I <? roff c + bn) then rsum (map (fun k => cmul (elem0 m0 mx (mv c (I - roff c) k)) (elem0 m0 x [xoff c + k; e])) (zrange bm)) else c0) calls))).
Proof.
  intros Hbn Rr Rx Rm Hmv Hro Hstep.
  destruct (foldM_inv (fun done m => untouched m0 m r /\ forall I e, 0 <= I < N -> 0 <= e < C -> elem m r [I; e] = Some (cadd (elem0 m0 r [I; e])
      (rsum (map (fun c => if (roff c <=? I) && (I <? roff c + bn) then rsum (map (fun k => cmul (elem0 m0 mx (mv c (I - roff c) k)) (elem0 m0 x [xoff c + k; e])) (zrange bm)) else c0) done)))) step calls m0) as (m' & E & U & V).
  - split; [intros b a _; reflexivity|]. intros I e HI He. cbn [map]. unfold rsum. cbn. rewrite (readable_elem m0 r) by (try assumption; rewrite Er; apply in_range_2; lia). f_equal. ring.
  - intros done c rest m El (U & V). assert (Hc : In c calls) by (rewrite El; apply in_or_app; right; now left).
    assert (Rr' : readable m r). { intros ix Hix. rewrite Er in Hix. apply in_range_2_inv in Hix as (I & e & -> & HI & He). rewrite V by assumption. discriminate. }
    assert (Rx' : readable m x) by now apply (keep_readable r x m0 m). assert (Rm' : readable m mx) by now apply (keep_readable r mx m0 m).
    destruct (Hstep c m Hc Rr' Rx' Rm') as (m' & E & U' & V1 & V2). exists m'. split; [exact E|]. split.
    + intros b a Hn. rewrite U' by exact Hn. now apply U.
    + intros I e HI He. rewrite map_app, rsum_app. cbn [map]. destruct (Hro c Hc) as (Hr0 & Hr1 & Hx0 & Hx1).
      destruct ((roff c <=? I) && (I <? roff c + bn)) eqn:Eb.
      * apply andb_true_iff in Eb as [B1 B2]. apply Z.leb_le in B1. apply Z.ltb_lt in B2. replace I with (roff c + (I - roff c)) at 1 by lia. rewrite V1 by lia. replace (roff c + (I - roff c)) with I by lia.
        f_equal. unfold elem0 at 1. rewrite V by assumption. rewrite rsum_one.
        assert (Es : rsum (map (fun k => cmul (elem0 m mx (mv c (I - roff c) k)) (elem0 m x [xoff c + k; e])) (zrange bm)) = rsum (map (fun k => cmul (elem0 m0 mx (mv c (I - roff c) k)) (elem0 m0 x [xoff c + k; e])) (zrange bm)) :> R).
        { apply rsum_ext. intros k Hk. apply in_zrange in Hk. f_equal; [apply (keep_elem0 r mx); try assumption; apply Hmv; [exact Hc|lia|exact Hk]|apply (keep_elem0 r x); try assumption; rewrite Ex; apply in_range_2; lia]. }
        rewrite Es. ring.
      * rewrite V2; [|exact HI|exact He|intros [B1 B2]; apply Z.leb_le in B1; apply Z.ltb_lt in B2; now rewrite B1, B2 in Eb]. rewrite V by assumption. f_equal. rewrite rsum_one. ring.
  - exists m'. split; [exact E|]. split; [exact U|exact V].
Qed.
End Step.
