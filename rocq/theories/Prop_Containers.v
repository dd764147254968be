(* Prop_Containers.v -- C24..C30: the containers over arbitrary histories. *)
From Verif Require Import Base BaseFacts Map Model_Containers Proofs_Containers Proofs_Containers2 Proofs_Containers3 Proofs_Containers4.
Local Open Scope Z_scope.
(* computes the conjuncts of a concrete case from left to right *)
Ltac run := repeat match goal with |- exists _, _ => eexists | |- _ /\ _ => split; [solve [vm_compute; reflexivity]|] end; vm_compute; reflexivity.

(* C24 *)
(* what a client can see of a pool: size, whole lists, single elements, lengths *)
Definition reads_as (p : apool) (L : list (list Z)) : Prop :=
  ap_size p = Z.of_nat (length L) /\
  forall i, 0 <= i < Z.of_nat (length L) ->
    ap_list p i = Ok (nth (Z.to_nat i) L []) /\ ap_size_of p i = Ok (Z.of_nat (length (nth (Z.to_nat i) L []))) /\
    forall j, 0 <= j < Z.of_nat (length (nth (Z.to_nat i) L [])) -> ap_get p i j = Ok (nth (Z.to_nat j) (nth (Z.to_nat i) L []) 0).
Lemma prep_reads p L : prep p L -> reads_as p L.
Proof.
  intro P. split; [now apply prep_size|]. intros i Hi. split; [now apply prep_list|]. split; [now apply prep_size_of|]. intros j Hj. now apply prep_get.
Qed.
(* any history of push_back, reserve and copying, from the empty pool *)
Definition pool_of (ops : list pop) : res apool := foldM pstep ops ap_new.
Lemma pool_of_prep ops : exists p, pool_of ops = Ok p /\ prep p (pushed ops).
Proof. apply (prun_ok ops ap_new [] prep_new). Qed.
Theorem C24_history : forall ops, exists p, pool_of ops = Ok p /\ reads_as p (pushed ops).
Proof. intro ops. destruct (pool_of_prep ops) as (p & E & P). exists p. split; [exact E|now apply prep_reads]. Qed.
Print Assumptions C24_history.
Theorem C24_cat : forall (hs : list (list pop)) ps, Forall2 (fun h p => pool_of h = Ok p) hs ps ->
  exists p, ap_cat ps = Ok p /\ reads_as p (concat (map pushed hs)).
Proof.
  intros hs ps F. destruct (cat_ok ps (map pushed hs)) as (p & E & P).
  - induction F as [|h p hs ps H F IH]; [constructor|]. cbn. constructor; [|assumption]. destruct (pool_of_prep h) as (p' & E & P). rewrite H in E. now injection E as ->.
  - exists p. split; [exact E|now apply prep_reads].
Qed.
Print Assumptions C24_cat.
Theorem C24_equality : forall h1 h2 p1 p2, pool_of h1 = Ok p1 -> pool_of h2 = Ok p2 ->
  exists b, ap_eq p1 p2 = Ok b /\ (b = true <-> pushed h1 = pushed h2).
Proof.
  intros h1 h2 p1 p2 E1 E2. destruct (pool_of_prep h1) as (q1 & F1 & P1). destruct (pool_of_prep h2) as (q2 & F2 & P2).
  rewrite E1 in F1. rewrite E2 in F2. injection F1 as <-. injection F2 as <-. now apply pool_eq_ok.
Qed.
Print Assumptions C24_equality.
Definition ex_pops : list pop := [PPush [1; 2; 3]; PReserve 50; PPush []; PCopy; PPush [4]; PPush [5; 6; 7; 8]].
Example C24_case : pushed ex_pops = [[1; 2; 3]; []; [4]; [5; 6; 7; 8]] /\
  exists p q r, pool_of ex_pops = Ok p /\ pool_of [PPush [9]] = Ok q /\ ap_cat [p; q; p] = Ok r /\ ap_list r 4 = Ok [9] /\ ap_list r 8 = Ok [5; 6; 7; 8].
Proof. split; [reflexivity|]. run. Qed.

(* C25 *)
Definition hl_reads_as (p : apool) (qs : list (Z * list Z)) : Prop :=
  ap_size p = Z.of_nat (length qs) /\
  forall i h l, 0 <= i < Z.of_nat (length qs) -> nth (Z.to_nat i) qs (0, []) = (h, l) ->
    hl_head p i = Ok h /\ hl_list p i = Ok l /\ hl_size_of p i = Ok (Z.of_nat (length l)) /\
    forall j, 0 <= j < Z.of_nat (length l) -> hl_get p i j = Ok (nth (Z.to_nat j) l 0).
Lemma prep_hl_reads p qs : prep p (map hrow qs) -> hl_reads_as p qs.
Proof.
  intro P. split; [rewrite (prep_size _ _ P); unfold zlen; now rewrite map_length|]. intros i h l Hi E. apply (hl_row p (map hrow qs)); auto.
  - unfold zlen. rewrite map_length. lia.
  - unfold znth. rewrite (nth_indep _ [] (hrow (0, []))) by (rewrite map_length; lia). rewrite map_nth, E. reflexivity.
Qed.
Theorem C25_pushes : forall qs, exists p, foldM (fun q p => hl_push (fst q) (snd q) p) qs ap_new = Ok p /\ hl_reads_as p qs.
Proof. intro qs. destruct (hl_pushes_ok qs ap_new [] prep_new) as (p & E & P). exists p. split; [exact E|now apply prep_hl_reads]. Qed.
Print Assumptions C25_pushes.
(* pre-sized lists (fill_noalloc): elements are appended in order, and a full list refuses the element *)
Definition fits_in (lens : list Z) (qs : list (Z * list Z)) (i : Z) : Prop :=
  Z.of_nat (length (snd (nth (Z.to_nat i) qs (0, [])))) < nth (Z.to_nat i) lens 0.
Definition append_to (i v : Z) (qs : list (Z * list Z)) : list (Z * list Z) :=
  map (fun p => if fst p =? i then (fst (snd p), snd (snd p) ++ [v]) else snd p) (combine (zrange (Z.of_nat (length qs))) qs).
(* a history of single pushes; those refused with an exception leave the table as it is *)
Definition try_push (iv : Z * Z) (p : apool) : res apool :=
  match hl_push_at (fst iv) (snd iv) p with Throw => Ok p | r => r end.
Definition expect (lens : list Z) (iv : Z * Z) (qs : list (Z * list Z)) : list (Z * list Z) :=
  if Z.of_nat (length (snd (nth (Z.to_nat (fst iv)) qs (0, [])))) <? nth (Z.to_nat (fst iv)) lens 0 then append_to (fst iv) (snd iv) qs else qs.
Lemma append_row i v qs : 0 <= i < zlen qs -> map hrow (append_to i v qs) = upd_row i v (map hrow qs).
Proof.
  intro Hi. unfold zlen in Hi. apply (nth_ext _ _ [] []).
  - unfold append_to, upd_row. rewrite set_at_length, !map_length, combine_length, zrange_length. lia.
  - intros n Hn. unfold append_to in Hn. rewrite !map_length, combine_length, zrange_length in Hn.
    assert (Hq : (n < length qs)%nat) by lia.
    unfold append_to, upd_row, znth. rewrite nth_set_at by (rewrite map_length; lia). rewrite !map_map.
    set (f := fun x : Z * (Z * list Z) => _). rewrite (nth_indep _ [] (f (0, (0, [])))) by (rewrite map_length, combine_length, zrange_length; lia).
    rewrite map_nth, combine_nth by (rewrite zrange_length; lia).
    assert (En : nth n (zrange (Z.of_nat (length qs))) 0 = Z.of_nat n).
    { pose proof (zrange_nth (Z.of_nat (length qs)) (Z.of_nat n) ltac:(lia)) as N. rewrite Nat2Z.id in N. now apply nth_error_nth. }
    rewrite En. unfold f. cbn [fst snd].
    assert (Hr : forall k, (k < length qs)%nat -> nth k (map hrow qs) [] = hrow (nth k qs (0, []))).
    { intros k Hk. rewrite (nth_indep _ [] (hrow (0, []))) by (rewrite map_length; lia). now rewrite map_nth. }
    destruct (Z.of_nat n =? i) eqn:E.
    + replace (n =? Z.to_nat i)%nat with true by (symmetry; apply Nat.eqb_eq; lia). rewrite Hr by lia. replace (Z.to_nat i) with n by lia. reflexivity.
    + replace (n =? Z.to_nat i)%nat with false by (symmetry; apply Nat.eqb_neq; lia). rewrite Hr by lia. reflexivity.
Qed.
Theorem C25_presized : forall heads lens ivs, Forall (fun x => 0 <= x) lens -> length heads = length lens ->
  Forall (fun iv => 0 <= fst iv < Z.of_nat (length lens)) ivs ->
  exists p p', hl_make false heads lens = Ok p /\ foldM try_push ivs p = Ok p' /\
    hl_reads_as p' (fold_left (fun qs iv => expect lens iv qs) ivs (map (fun h => (h, [])) heads)).
Proof.
  intros heads lens ivs F Hl Fi. destruct (hl_make_hrep heads lens F Hl) as (p & E & R). exists p.
  assert (G : forall ivs, Forall (fun iv => 0 <= fst iv < Z.of_nat (length lens)) ivs -> forall p qs, hrep p lens (map hrow qs) ->
     exists p', foldM try_push ivs p = Ok p' /\ hrep p' lens (map hrow (fold_left (fun qs iv => expect lens iv qs) ivs qs))).
  { clear -Hl. intros ivs Fi. induction Fi as [|[i v] ivs Hi Fi IH]; intros p qs R; [exists p; auto|]. cbn [foldM fold_left fst snd] in *.
    assert (Lq : length qs = length lens) by (destruct R as (_ & R & _); unfold zlen in R; rewrite map_length in R; lia).
    pose proof (hl_push_at_ok p lens (map hrow qs) i v R ltac:(unfold zlen; lia)) as Q.
    assert (En : zlen (znth (map hrow qs) i) = Z.of_nat (length (snd (nth (Z.to_nat i) qs (0, [])))) + 1).
    { unfold znth. rewrite (nth_indep _ [] (hrow (0, []))) by (rewrite map_length; lia). rewrite map_nth. unfold zlen, hrow. cbn [length]. lia. }
    assert (S : exists p1, try_push (i, v) p = Ok p1 /\ hrep p1 lens (map hrow (expect lens (i, v) qs))).
    { unfold try_push, expect. cbn [fst snd]. rewrite En in Q. destruct (_ <? _) eqn:El.
      - replace (_ <=? _) with true in Q by lia. destruct Q as (p' & -> & R'). exists p'. split; [reflexivity|]. rewrite append_row by (unfold zlen; lia). exact R'.
      - replace (_ <=? _) with false in Q by lia. rewrite Q. exists p. auto. }
    destruct S as (p1 & -> & R1). cbn [bind]. now apply IH. }
  destruct (G ivs Fi p (map (fun h => (h, [])) heads)) as (p' & E' & R').
  { rewrite map_map. exact R. }
  exists p'. split; [exact E|]. split; [exact E'|]. apply prep_hl_reads. now apply hrep_prep in R'.
Qed.
Print Assumptions C25_presized.
Example C25_case : exists p p', hl_make false [10; 20] [2; 1] = Ok p /\ foldM try_push [(0, 5); (1, 6); (0, 7); (1, 8); (0, 9)] p = Ok p' /\
  hl_head p' 1 = Ok 20 /\ hl_list p' 0 = Ok [5; 7] /\ hl_list p' 1 = Ok [6] /\ hl_push_at 1 8 p' = Throw.
Proof. run. Qed.
(* the constructor without the fill_noalloc tag marks all rows as full: every push is refused *)
Theorem C25_filled_constructor_refuted : forall heads lens p i v, Forall (fun x => 0 <= x) lens -> length heads = length lens ->
  hl_make true heads lens = Ok p -> 0 <= i < Z.of_nat (length lens) -> hl_push_at i v p = Throw.
Proof. exact hl_full_throws. Qed.
Print Assumptions C25_filled_constructor_refuted.
(* pushing a head with a set of two elements stores only the last one *)
Theorem C25_push_set_refuted : exists h s p, hl_push_set h s ap_new = Ok p /\ s = [3; 4] /\ hl_get p 0 0 = Ok 4 /\ hl_list p 0 = UB.
Proof. exists 1, [3; 4]. run. Qed.
Print Assumptions C25_push_set_refuted.
(* building from a map of lists *)
Theorem C25_from_map : forall m, exists p, hl_of_map m = Ok p /\ hl_reads_as p m.
Proof. intro m. destruct (hl_of_map_ok m) as (p & E & P). exists p. split; [exact E|now apply prep_hl_reads]. Qed.
Print Assumptions C25_from_map.

(* C26 *)
(* the values pushed for k, in order *)
Definition values_of (k : Z) (ps : list (Z * Z)) : list Z := map snd (filter (fun p => fst p =? k) ps).
Theorem C26_map_of_lists : forall ps, let m := fold_left (fun m p => mol_push (fst p) (snd p) m) ps [] in
  (forall k, mol_list k m = values_of k ps) /\ (forall k, mfind k m = None <-> values_of k ps = []) /\
  NoDup (map fst m) /\ mol_tsize m = Z.of_nat (length ps) /\ Permutation (mol_calls m) ps.
Proof.
  intros ps m. assert (P := mol_calls_perm ps). change (mol_run ps) with m in P. split; [|split; [|split; [apply (mol_wf ps)|split; [|exact P]]]].
  - intro k. unfold mol_list. change m with (mol_run ps). rewrite mol_find. change (values_of k ps) with (vals k ps). destruct (vals k ps); reflexivity.
  - intro k. change m with (mol_run ps). rewrite mol_find. change (values_of k ps) with (vals k ps). destruct (vals k ps); split; congruence.
  - rewrite mol_tsize_calls. unfold zlen. now rewrite (Permutation_length P).
Qed.
Print Assumptions C26_map_of_lists.
(* the value of the last write to (i,j) *)
Definition last_at (i j : Z) (ws : list (Z * Z * Z)) : option Z :=
  option_map snd (find (fun w => (fst (fst w) =? i) && (snd (fst w) =? j)) (rev ws)).
Definition mom_of (ws : list (Z * Z * Z)) : mom := fold_left (fun m w => mom_set (fst (fst w)) (snd (fst w)) (snd w) m) ws [].
Theorem C26_map_of_maps : forall ws,
  (forall i j, mom_get i j (mom_of ws) = match last_at i j ws with Some x => x | None => 0 end) /\
  (forall i j, mom_filled i j (mom_of ws) = true <-> exists x, last_at i j ws = Some x) /\
  (forall i j x, In (i, j, x) (mom_calls (mom_of ws)) <-> last_at i j ws = Some x) /\ NoDup (map fst (mom_calls (mom_of ws))) /\
  mom_size (mom_of ws) = Z.of_nat (length (mom_calls (mom_of ws))).
Proof.
  intro ws. change (mom_of ws) with (mom_run ws). pose proof (mom_run_wf ws) as W. split; [|split; [|split; [|split]]].
  - intros i j. rewrite mom_get_find, mom_run_find. reflexivity.
  - intros i j. rewrite mom_filled_find, mom_run_find. change (last_at i j ws) with (last_write i j ws). destruct (last_write i j ws); split; eauto; [discriminate|intros []; discriminate].
  - intros i j x. rewrite mom_calls_in by assumption. rewrite mom_run_find. reflexivity.
  - now apply mom_calls_nodup.
  - apply mom_size_calls.
Qed.
Print Assumptions C26_map_of_maps.
Theorem C26_equality : forall ws vs, mom_eq (mom_of ws) (mom_of vs) = true <-> forall i j, last_at i j ws = last_at i j vs.
Proof.
  intros ws vs. change (mom_of ws) with (mom_run ws). change (mom_of vs) with (mom_run vs). unfold mom_eq. rewrite andb_true_iff.
  rewrite !mom_subset_ok by auto using mom_run_wf, mom_run_ne. setoid_rewrite mom_run_find. change last_at with last_write. split.
  - intros [A B] i j. destruct (last_write i j ws) as [x|] eqn:E; [symmetry; auto|]. destruct (last_write i j vs) as [y|] eqn:E'; [|reflexivity]. apply B in E'. congruence.
  - intro H. split; intros i j x; rewrite H; auto.
Qed.
Print Assumptions C26_equality.
Example C26_case : let ps := [(3, 1); (5, 2); (3, 4); (3, 1)] in
  mol_list 3 (fold_left (fun m p => mol_push (fst p) (snd p) m) ps []) = [1; 4; 1] /\
  mom_get 1 2 (mom_of [(1, 2, 7); (4, 2, 8); (1, 2, 9)]) = 9 /\ mom_filled 2 1 (mom_of [(1, 2, 7); (4, 2, 8); (1, 2, 9)]) = false.
Proof. repeat split. Qed.

(* C27 *)
Definition mutually_inverse (m : bmap) : Prop :=
  (forall k v, mfind k (fwd m) = Some v <-> mfind v (bwd m) = Some k) /\ length (fwd m) = length (bwd m).
(* every history in which an insertion repeats a stored pair, or its key and value are both new, leaves
   exactly the inserted and not erased pairs, in both directions *)
Theorem C27_fresh_history_partial : forall ops, fresh_history ops [] ->
  exists m, foldM bstep ops bm_new = Ok m /\ mutually_inverse m /\
    (forall k v, mfind k (fwd m) = Some v <-> In (k, v) (fold_left (fun R o => bspec o R) ops [])) /\
    (forall k v, mfind v (bwd m) = Some k <-> In (k, v) (fold_left (fun R o => bspec o R) ops [])).
Proof.
  intros ops F. destruct (brun_ok ops bm_new []) as (m & E & I & A); [split; [repeat split; try constructor; discriminate|split; [discriminate|intros []]]|assumption|].
  exists m. split; [exact E|]. split; [split; [apply I|now apply inverse_len]|]. split; [exact A|]. intros k v. rewrite <- A. destruct I as (_ & _ & H). symmetry. apply H.
Qed.
Print Assumptions C27_fresh_history_partial.
Example C27_case : let ops := [BIns 1 10; BIns 2 20; BIns 1 10; BErase 1; BIns 1 30; BEraseB 20; BIns 3 10; BErase 9] in fresh_history ops [] /\
  exists m, foldM bstep ops bm_new = Ok m /\ mfind 10 (bwd m) = Some 3 /\ fold_left (fun R o => bspec o R) ops [] = [(3, 10); (1, 30)].
Proof.
  split; [|run]. cbn. repeat (split; try exact I; try (left; now auto); try (right; intros p []; fail)). all: right; intros p [<-|[]]; cbn; lia.
Qed.
(* giving an existing key a new value erases its entry twice *)
Theorem C27_reinsert_refuted : forall k v w m, mutually_inverse m -> mfind k (fwd m) = Some v -> v <> w -> bm_insert k w m = UB.
Proof.
  intros k v w m [H _] E Hne. unfold bm_insert. rewrite E. replace (v =? w) with false by lia. unfold bm_erase_backward.
  assert (E' := E). apply H in E'. rewrite E'. cbn [fwd]. now rewrite mfind_erase, Z.eqb_refl.
Qed.
Print Assumptions C27_reinsert_refuted.
(* giving a new key an existing value leaves the directions inconsistent *)
Theorem C27_value_reuse_refuted : exists m, foldM bstep [BIns 1 10; BIns 2 10] bm_new = Ok m /\
  mfind 2 (fwd m) = Some 10 /\ mfind 10 (bwd m) = Some 1 /\ length (fwd m) <> length (bwd m).
Proof. eexists. split; [vm_compute; reflexivity|]. repeat split. discriminate. Qed.
Print Assumptions C27_value_reuse_refuted.

(* C28 *)
Theorem C28_rows_columns : forall ops, let m := fold_left dstep ops dm_new in let ws := dwrites ops in
  (forall i j, mom_get i j (rmap m) = match last_at i j ws with Some x => x | None => 0 end) /\
  (forall i j, mom_get j i (cmap m) = mom_get i j (rmap m)) /\ (forall i j, mom_filled j i (cmap m) = mom_filled i j (rmap m)) /\
  (forall i j x, In (j, x) (fst (dm_row_calls i m)) <-> last_at i j ws = Some x) /\
  (forall i j x, In (i, x) (dm_col_calls j m) <-> last_at i j ws = Some x) /\
  Permutation (mom_calls (rmap m)) (map (fun c => (snd (fst c), fst (fst c), snd c)) (mom_calls (cmap m))) /\ NoDup (map fst (mom_calls (rmap m))).
Proof.
  intros ops m ws. destruct (drun_ok ops) as (A & B & C & D). change (drun ops) with m in *. fold ws in C, D. change last_at with last_write.
  assert (Hrow : forall (M : mom) i j x, momwf M -> (In (j, x) (mom_row i M) <-> mom_find i j M = Some x)).
  { intros M i j x [W1 W2]. unfold mom_find. unfold mom_row. destruct (mfind i M) as [r|] eqn:E; [symmetry; apply mfind_iff; eauto|split; [intros []|discriminate]]. }
  split; [intros i j; rewrite mom_get_find, C; reflexivity|]. split; [intros i j; rewrite !mom_get_find, C, D; reflexivity|].
  split; [intros i j; rewrite !mom_filled_find, C, D; reflexivity|]. split; [intros i j x; cbn; rewrite Hrow by assumption; now rewrite C|].
  split; [intros i j x; unfold dm_col_calls; rewrite Hrow by assumption; now rewrite D|]. split; [|now apply mom_calls_nodup].
  apply NoDup_Permutation.
  - apply (NoDup_map_inv fst). now apply mom_calls_nodup.
  - apply NoDup_map_inj; [intros [[a b] x] [[c d] y] _ _ E; cbn in E; congruence|]. apply (NoDup_map_inv fst). now apply mom_calls_nodup.
  - intros [[i j] x]. rewrite mom_calls_in, C by assumption. rewrite in_map_iff. split.
    + intro H. exists (j, i, x). split; [reflexivity|]. apply mom_calls_in; [assumption|]. now rewrite D.
    + intros ([[j' i'] x'] & E & H). cbn in E. injection E as -> -> ->. apply mom_calls_in in H; [|assumption]. now rewrite D in H.
Qed.
Print Assumptions C28_rows_columns.
Example C28_case : let m := fold_left dstep [DSet 1 2 7; DRow 5; DSet 3 2 8; DSet 1 2 9; DSet 1 4 6] dm_new in
  mom_get 2 1 (cmap m) = 9 /\ dm_col_calls 2 m = [(1, 9); (3, 8)] /\ fst (dm_row_calls 1 m) = [(2, 9); (4, 6)].
Proof. repeat split. Qed.

(* C29 *)
(* every valid history of push_back, reserve0, resize0 and copying succeeds and keeps all rows *)
Theorem C29_history : forall c r0 ops, 0 < c -> 0 <= r0 ->
  let rows0 := repeat (repeat None (Z.to_nat c)) (Z.to_nat r0) in tvalids c ops rows0 ->
  exists t, foldM tstep ops (it_new r0 c) = Ok t /\ holds_rows t c (fold_left (fun r o => tspec c o r) ops rows0).
Proof.
  intros c r0 ops Hc Hr rows0 V. destruct (trun_inv c ops (it_new r0 c) rows0) as (t & E & I); [|assumption|exists t; split; [exact E|now apply tinv_holds]].
  unfold rows0. split; [rewrite repeat_length, Z2Nat.id by assumption; now apply tab_new|]. intros i j v _ _ H. exfalso. revert H.
  destruct (nth_in_or_default (Z.to_nat i) (repeat (repeat (@None Z) (Z.to_nat c)) (Z.to_nat r0)) []) as [I|I].
  - apply repeat_spec in I. rewrite I, nth_repeat. discriminate.
  - rewrite I. destruct (Z.to_nat j); discriminate.
Qed.
Print Assumptions C29_history.
Example C29_case : let ops := [TPush [1; 2]; TReserve 9; TPush [3; 4]; TResize 5; TCopy; TPush [5; 6]] in
  tvalids 2 ops [] /\ exists t, foldM tstep ops (it_new 0 2) = Ok t /\ irows t = 6 /\ it_row t 5 = Ok [5; 6] /\ it_row t 1 = Ok [3; 4].
Proof. cbv zeta. split; [cbn; repeat split; lia|]. run. Qed.
(* a table that is pushed to and a copy of it have the same rows but compare unequal, or the comparison
   reads cells that were never written *)
Theorem C29_equality_refuted : exists t u, it_push [1; 2] (it_new 0 2) = Ok t /\ it_copy t = Ok u /\
  it_row t 0 = it_row u 0 /\ irows t = irows u /\ it_eq t u = Ok false /\ it_eq t t = UB.
Proof. run. Qed.
Print Assumptions C29_equality_refuted.
(* after copying (which drops spare capacity) equality of fully written tables is right *)
Theorem C29_equality_of_copies_partial : forall c rx ry x y, 0 < c -> tab x c rx -> tab y c ry ->
  (forall i j, 0 <= i < rx -> 0 <= j < c -> exists v, it_get x i j = Ok v) -> (forall i j, 0 <= i < ry -> 0 <= j < c -> exists v, it_get y i j = Ok v) ->
  exists x' y' b, it_copy x = Ok x' /\ it_copy y = Ok y' /\ it_eq x' y' = Ok b /\
    (b = true <-> rx = ry /\ forall i j, 0 <= i < rx -> 0 <= j < c -> it_get x i j = it_get y i j).
Proof.
  intros c rx ry x y Hc Tx Ty Ix Iy. destruct (it_copy_ok _ _ _ Tx) as (x' & Ex & Tx' & Lx & Cx). destruct (it_copy_ok _ _ _ Ty) as (y' & Ey & Ty' & Ly & Cy).
  assert (G : forall t r, tab t c r -> (forall i j, 0 <= i < r -> 0 <= j < c -> exists v, it_get t i j = Ok v) -> forall i j, 0 <= i < r -> 0 <= j < c -> exists v, cell (ibuf t) (i * c + j) = Some v /\ it_get t i j = Ok v).
  { intros t r T I i j Hi Hj. destruct (I i j Hi Hj) as [v Hv]. assert (Hv0 := Hv). unfold it_get in Hv. destruct T as (Tc & _). rewrite Tc in Hv. destruct (cell (ibuf t) (i * c + j)) as [w|] eqn:E.
    - rewrite (bget_cell _ _ _ E) in Hv. injection Hv as ->. eauto.
    - rewrite (bget_none _ _ E) in Hv. discriminate. }
  assert (K : forall r k, 0 <= k < r * c -> exists i j, k = i * c + j /\ 0 <= i < r /\ 0 <= j < c).
  { intros r k Hk. exists (k / c), (k mod c). pose proof (Z.mod_pos_bound k c Hc). pose proof (Z.div_mod k c ltac:(lia)). pose proof (Z.div_pos k c ltac:(lia) Hc).
    assert (k / c < r) by (apply Z.div_lt_upper_bound; lia). repeat split; lia. }
  destruct (it_eq_ok x' y' c rx ry Tx' Ty' Lx Ly) as (b & Eb & Hb).
  - intros k Hk. rewrite Cx by lia. destruct (K _ _ Hk) as (i & j & -> & Hi & Hj). destruct (G x rx Tx Ix i j Hi Hj) as (v & ? & _). eauto.
  - intros k Hk. rewrite Cy by lia. destruct (K _ _ Hk) as (i & j & -> & Hi & Hj). destruct (G y ry Ty Iy i j Hi Hj) as (v & ? & _). eauto.
  - exists x', y', b. split; [exact Ex|]. split; [exact Ey|]. split; [exact Eb|]. rewrite Hb. split; intros [E H]; (split; [exact E|]); subst ry.
    + intros i j Hi Hj. destruct (G x rx Tx Ix i j Hi Hj) as (v & A & ->). destruct (G y rx Ty Iy i j Hi Hj) as (w & B & ->).
      specialize (H (i * c + j) ltac:(nia)). rewrite Cx, Cy, A, B in H by nia. congruence.
    + intros k Hk. rewrite Cx, Cy by lia. destruct (K _ _ Hk) as (i & j & -> & Hi & Hj). specialize (H i j Hi Hj).
      destruct (G x rx Tx Ix i j Hi Hj) as (v & A & A'). destruct (G y rx Ty Iy i j Hi Hj) as (w & B & B'). congruence.
Qed.
Print Assumptions C29_equality_of_copies_partial.

(* C30 *)
Theorem C30_multivec : forall k ts, (0 < k)%nat -> Forall (fun t => length t = k) ts ->
  exists m, foldM mv_push ts (mv_new k) = Ok m /\ length m = k /\ Forall (fun col => length col = length ts) m /\
    (forall i, 0 <= i < Z.of_nat (length ts) -> mv_get m i = Ok (nth (Z.to_nat i) ts [])) /\ mv_size m = Z.of_nat (length ts) /\
    (forall t, length t <> k -> mv_push t m = Throw) /\ (ts <> [] -> foldM mv_push ts [] = Ok m).
Proof.
  intros k ts Hk F. destruct (mv_pushes_ok k ts Hk F _ _ (mv_new_rep k)) as (m & E & R). cbn in R. exists m. split; [exact E|]. assert (R0 := R). destruct R as (L & _ & H).
  split; [exact L|].
  assert (Fl : Forall (fun col => length col = length ts) m).
  { apply Forall_forall. intros col Hc. apply (In_nth _ _ []) in Hc as (j & Hj & <-). rewrite H by lia. apply map_length. }
  split; [exact Fl|]. split; [intros i Hi; now apply (mv_get_ok m k ts)|]. split.
  { destruct m as [|v m]; [cbn in L; lia|]. inversion Fl; subst. cbn. lia. }
  split; [intros t Ht; now apply (mv_mismatch m k ts)|]. intro Hne. destruct ts as [|t ts]; [congruence|]. assert (Ht : length t = k) by now inversion F. cbn [foldM] in *. rewrite mv_first, Ht. exact E.
Qed.
Print Assumptions C30_multivec.
Example C30_case : exists m, foldM mv_push [[1; 2]; [3; 4]; [5; 6]] [] = Ok m /\ mv_get m 1 = Ok [3; 4] /\ m = [[1; 3; 5]; [2; 4; 6]].
Proof. run. Qed.
