(* Proofs_PoolMem2.v -- self-assignment, moved-from pools, views and tables of pools. *)
From Verif Require Import Base BaseFacts Map Model_Containers Proofs_Containers Proofs_Containers2 Proofs_Containers3 Model_PoolMem Spec_PoolMem Proofs_PoolMem.
Local Open Scope Z_scope.

Lemma prun_app cs ds s : prun (cs ++ ds) s = do s <- prun cs s; prun ds s.
Proof. unfold prun. revert s. induction cs as [|c cs IH]; intro s; [reflexivity|]. cbn [app foldM]. destruct (pexec c s); [cbn [bind]; apply IH|reflexivity|reflexivity]. Qed.
Lemma inv_obj s e k L : inv s e -> e k = Some (Some L) -> exists o, pobjs s k = Some o /\ owned (pmemory s) o L.
Proof. intros [I1 _ _ _] Ek. specialize (I1 k). rewrite Ek in I1. destruct (pobjs s k) as [o|]; [|contradiction]. exists o. auto. Qed.
Lemma inv_none s e k : inv s e -> e k = None -> pobjs s k = None.
Proof. intros [I1 _ _ _] Ek. specialize (I1 k). rewrite Ek in I1. destruct (pobjs s k); [contradiction|reflexivity]. Qed.
Lemma bindp_same k o f : bindp k o f k = o. Proof. unfold bindp. now rewrite Z.eqb_refl. Qed.
Lemma bindp_other k j o f : j <> k -> bindp k o f j = f j. Proof. intro. unfold bindp. now replace (j =? k) with false by lia. Qed.

(* ---- a pool assigned to itself *)
Lemma assign_self s e k L i : inv s e -> e k = Some (Some L) -> 0 <= i < zlen L ->
  exists s', pexec (PAssign k k) s = Ok s' /\ psize k s' = Ok (zlen L) /\ prow k i s' = UB.
Proof.
  intros I Ek Hi. destruct (inv_obj _ _ _ _ I Ek) as (o & Eo & O). destruct O as (V & D & T & C & M & A). cbn [pexec]. unfold with_obj. rewrite Eo, Z.eqb_refl. unfold po_assign_self. rewrite V.
  destruct (free_ok _ (parr o) (i_new _ _ I) A) as (h1 & -> & M1). cbn [bind palloc]. eexists. split; [reflexivity|]. assert (Td : tab (pdir o) 2 (zlen L)) by apply D.
  assert (Er : irows (pdir o) = zlen L) by apply Td. unfold psize, prow, with_obj. cbn [pobjs pmemory]. rewrite bindp_same. unfold ap_list, ap_size, pool_at. cbn [adir pdir it_new irows].
  rewrite Er. split; [reflexivity|]. replace (i <? zlen L) with true by lia. cbn [assrt]. unfold it_get. cbn [ibuf icols]. rewrite bget_none by apply cell_new. reflexivity.
Qed.
Lemma move_self s e k L i : inv s e -> e k = Some (Some L) -> 0 <= i < zlen L ->
  exists s', pexec (PMoveAssign k k) s = Ok s' /\ psize k s' = Ok (zlen L) /\ prow k i s' = UB.
Proof.
  intros I Ek Hi. destruct (inv_obj _ _ _ _ I Ek) as (o & Eo & O). destruct O as (V & D & T & C & M & A). cbn [pexec]. unfold with_obj. rewrite Eo, Z.eqb_refl. unfold po_move_assign_self. rewrite V.
  destruct (free_ok _ (parr o) (i_new _ _ I) A) as (h1 & -> & M1). cbn [bind]. eexists. split; [reflexivity|]. assert (Td : tab (pdir o) 2 (zlen L)) by apply D.
  assert (Er : irows (pdir o) = zlen L) by apply Td. unfold psize, prow, with_obj. cbn [pobjs pmemory]. rewrite bindp_same. unfold ap_list, ap_size, pool_at. cbn [adir pdir it_gone irows].
  rewrite Er. split; [reflexivity|]. replace (i <? zlen L) with true by lia. cbn [assrt]. unfold it_get. cbn [ibuf icols]. rewrite bget_none by (unfold cell; destruct (0 <=? _); [now destruct (Z.to_nat _)|reflexivity]). reflexivity.
Qed.
(* ---- a pool whose contents were moved away *)
Lemma cell_nil i : cell [] i = None. Proof. unfold cell. destruct (0 <=? i); [|reflexivity]. now destruct (Z.to_nat i). Qed.
Lemma gone_push d (L : list (list Z)) a b : tab d 2 (zlen L) -> L <> [] -> it_push2 a b (it_gone d) = UB.
Proof.
  intros (Ec & _ & Er & _ & _) Hn. assert (0 < zlen L) by (destruct L; [congruence|unfold zlen; cbn [length]; lia]). unfold it_push2, it_push, it_gone. cbn [icols irows ibuf]. rewrite Ec. cbn [length Z.of_nat].
  change (2 =? _) with true. cbn [assrt]. unfold it_capacity. cbn [icols ibuf]. change (2 =? 0) with false. cbn [bind]. change (Z.quot (blen []) 2) with 0. rewrite Er. replace (0 <=? zlen L + 1) with true by lia.
  unfold it_reserve, it_capacity. cbn [icols ibuf irows]. change (2 =? 0) with false. cbn [bind]. change (Z.quot (blen []) 2) with 0. replace (2 * (zlen L + 1) <=? 0) with false by lia.
  unfold bcopy. change (blen []) with 0. replace (2 * zlen L <=? 0) with false by lia. rewrite andb_false_r. cbn [andb]. replace (2 * zlen L =? 0) with false by lia. reflexivity.
Qed.
Lemma gone_copy d (L : list (list Z)) : tab d 2 (zlen L) -> L <> [] -> it_copy (it_gone d) = UB.
Proof.
  intros (Ec & _ & Er & _ & _) Hn. assert (0 < zlen L) by (destruct L; [congruence|unfold zlen; cbn [length]; lia]). unfold it_copy, it_gone. cbn [icols irows ibuf]. rewrite Ec, Er.
  unfold bcopy. change (blen []) with 0. replace (2 * zlen L <=? 0) with false by lia. rewrite andb_false_r. cbn [andb]. replace (2 * zlen L =? 0) with false by lia. reflexivity.
Qed.
Lemma moved_from s e k j L : inv s e -> e k = None -> e j = Some (Some L) -> L <> [] ->
  exists s', pexec (PMoveTo k j) s = Ok s' /\ psize j s' = Ok (zlen L) /\ (forall i, 0 <= i < zlen L -> prow j i s' = UB) /\
    (forall v, pexec (PPushTo j v) s' = UB) /\ (forall c, pobjs s' c = None -> pexec (PCopyTo c j) s' = UB).
Proof.
  intros I Ek Ej Hn. destruct (inv_obj _ _ _ _ I Ej) as (o & Eo & O). destruct O as (V & D & T & C & M & A). assert (Td : tab (pdir o) 2 (zlen L)) by apply D. assert (Er : irows (pdir o) = zlen L) by apply Td.
  cbn [pexec]. unfold with_obj, if_new. rewrite (inv_none _ _ _ I Ek), Eo. cbn [po_move]. eexists. split; [reflexivity|]. unfold psize, prow, with_obj. cbn [pobjs pmemory]. rewrite bindp_same.
  unfold ap_list, ap_size, pool_at. cbn [adir pdir it_gone irows]. rewrite Er. split; [reflexivity|]. split; [|split].
  - intros i Hi. replace (i <? zlen L) with true by lia. cbn [assrt]. unfold it_get. cbn [ibuf icols]. rewrite bget_none by apply cell_nil. reflexivity.
  - intro v. unfold po_push. cbn [pmem ptail parr pdir pview]. destruct (0 <? 0 + Z.of_nat (length v)) eqn:E.
    + unfold po_reserve. cbn [pmem parr pfree]. replace (_ <=? 0) with false by lia. cbn [bind palloc pcells parrs parr ptail pdir]. rewrite Z.eqb_refl.
      destruct (bwrite_ok v (bnew (Z.max (2 * 0) (0 + Z.of_nat (length v)))) 0) as (b & -> & _); [lia|rewrite blen_new; lia|]. cbn [bind]. now rewrite (gone_push _ _ _ _ Td Hn).
    + destruct v; [|cbn [length] in E; lia]. cbn [bind pcells bwrite parr ptail pdir]. now rewrite (gone_push _ _ _ _ Td Hn).
  - intros c Hc. rewrite Hc. unfold po_copy. cbn [parr ptail pdir pcells]. change (bcopy [] 0 (bnew 0) 0) with (Ok ([] : buf)). cbn [bind palloc]. now rewrite (gone_copy _ _ Td Hn).
Qed.

(* ---- views *)
Definition hide (v : Z) (s : pst) : pst := PSt (bindp v None (pobjs s)) (pmemory s).
(* a view and its owner *)
Definition looks (s : pst) (e : penv) (k v : Z) (L : list (list Z)) : Prop :=
  k <> v /\ e k = Some (Some L) /\ e v = None /\ inv (hide v s) e /\ exists o x, pobjs s k = Some o /\ pobjs s v = Some x /\ owned (pmemory s) o L /\
    pview x = true /\ parr x = parr o /\ dir_of (pdir x) L /\ ptail x = ptail o.
Lemma looks_legible s e k v L : looks s e k v L -> exists o x, pobjs s k = Some o /\ pobjs s v = Some x /\ owned (pmemory s) o L /\ legible (pmemory s) x L.
Proof.
  intros (_ & _ & _ & _ & o & x & Eo & Ex & O & V & P & D & T). exists o, x. split; [assumption|]. split; [assumption|]. split; [assumption|]. split; [assumption|]. rewrite P, T. split; apply O.
Qed.
Lemma looks_set s e k v L w i j x : looks s e k v L -> within i j L = true ->
  exists s', pexec (PSet (if w : bool then v else k) i j x) s = Ok s' /\ looks s' (names k (Some (Some (change i j x L))) e) k v (change i j x L).
Proof.
  intros (Hkv & Ek & Ev & I & o & y & Eo & Ey & O & V & P & D & T) W. apply within_iff in W as [Hi Hj]. pose proof (i_new _ _ I) as U. cbn in U.
  destruct (set_owned i j x _ o L U O Hi Hj) as (h' & E & O' & M).
  assert (E' : po_set i j x y (pmemory s) = Ok h').
  { rewrite <- E. assert (Do : dir_of (pdir o) L) by apply O. destruct Do as (T1 & C1), D as (T2 & C2). unfold po_set. rewrite P.
    assert (R1 : irows (pdir o) = zlen L) by apply T1. assert (R2 : irows (pdir y) = zlen L) by apply T2. rewrite R1, R2. destruct (C1 i Hi) as [A1 B1], (C2 i Hi) as [A2 B2].
    rewrite (it_get_ok _ _ _ i 1 _ T1 B1), (it_get_ok _ _ _ i 1 _ T2 B2). rewrite (it_get_ok _ _ _ i 0 (off L i) T1), (it_get_ok _ _ _ i 0 (off L i) T2) by (now rewrite Z.add_0_r). reflexivity. }
  exists (PSt (pobjs s) h'). split.
  - cbn [pexec]. unfold with_obj. destruct w; [rewrite Ey, E'|rewrite Eo, E]; reflexivity.
  - unfold looks. cbn [pobjs pmemory]. split; [assumption|]. split; [unfold names; now rewrite Z.eqb_refl|]. split; [unfold names; now replace (v =? k) with false by lia|]. split.
    + assert (J : inv (PSt (bindp k (Some o) (pobjs (hide v s))) h') (names k (Some (Some (change i j x L))) e)).
      { apply inv_upd; [assumption| |exact O']. unfold hide. cbn [pobjs pmemory]. rewrite bindp_other by assumption. rewrite Eo. exact M. }
      apply (inv_ext _ _ _ _ J); try reflexivity. intro l. unfold hide, bindp. cbn [pobjs]. destruct (l =? k) eqn:El; [|reflexivity]. apply Z.eqb_eq in El as ->. replace (k =? v) with false by lia. exact Eo.
    + exists o, y. split; [assumption|]. split; [assumption|]. split; [assumption|]. split; [assumption|]. split; [assumption|]. split; [now apply dir_change|assumption].
Qed.
Lemma looks_sets ws : forall s e k v L, looks s e k v L -> in_place ws L ->
  exists s' e', prun (wcmds v k ws) s = Ok s' /\ looks s' e' k v (wrote ws L) /\ (forall l, e' l = names k (Some (Some (wrote ws L))) e l).
Proof.
  induction ws as [|(b & (i & j) & x) ws IH]; intros s e k v L H W.
  - exists s, e. split; [reflexivity|]. split; [exact H|]. intro l. unfold names. cbn. destruct (l =? k) eqn:El; [|reflexivity]. apply Z.eqb_eq in El as ->. apply H.
  - cbn in W. destruct W as [W1 W2]. destruct (looks_set s e k v L b i j x H W1) as (s1 & E1 & H1). destruct (IH s1 _ k v _ H1 W2) as (s' & e' & E' & H' & N). exists s', e'.
    split; [unfold prun, wcmds in *; cbn [map foldM]; rewrite E1; cbn [bind]; exact E'|]. split; [exact H'|]. intro l. rewrite N. unfold names. destruct (l =? k); reflexivity.
Qed.
Lemma view_looks s e k v L : inv s e -> e k = Some (Some L) -> e v = None -> exists s', pexec (PView v k) s = Ok s' /\ looks s' e k v L /\ pmemory s' = pmemory s /\ forall j, j <> v -> pobjs s' j = pobjs s j.
Proof.
  intros I Ek Ev. destruct (inv_obj _ _ _ _ I Ek) as (o & Eo & O). assert (Hkv : k <> v) by congruence. pose proof O as (V & D & T & C & M & A). destruct (dir_copy _ _ D) as (d & Ed & Dd).
  cbn [pexec]. unfold with_obj, if_new. rewrite (inv_none _ _ _ I Ev), Eo. unfold po_view. rewrite Ed. cbn [bind]. eexists. split; [reflexivity|]. split; [|split; [reflexivity|intros j Hj; cbn [pobjs]; now apply bindp_other]].
  split; [assumption|]. split; [assumption|]. split; [assumption|]. cbn [pobjs pmemory]. split.
  - apply (inv_ext _ _ _ _ I); try reflexivity. intro l. unfold hide. cbn [pobjs]. unfold bindp. destruct (l =? v) eqn:E; [|reflexivity]. apply Z.eqb_eq in E as ->. symmetry. exact (inv_none _ _ _ I Ev).
  - exists o. eexists. rewrite bindp_same, bindp_other by congruence. split; [assumption|]. split; [reflexivity|]. split; [assumption|]. cbn [pview parr pdir ptail]. auto.
Qed.
Lemma looks_delete s e k v L : looks s e k v L -> exists s', pexec (PDelete v) s = Ok s' /\ inv s' e.
Proof.
  intros (Hkv & Ek & Ev & I & o & y & Eo & Ey & O & V & P & D & T). cbn [pexec]. unfold with_obj. rewrite Ey. unfold po_delete. rewrite V. cbn [bind]. eexists. split; [reflexivity|]. exact I.
Qed.
Lemma looks_others s e k v L j M : looks s e k v L -> e j = Some (Some M) -> exists o, pobjs s j = Some o /\ owned (pmemory s) o M /\ j <> v.
Proof.
  intros (Hkv & Ek & Ev & I & _) Ej. destruct (inv_obj _ _ _ _ I Ej) as (o & Eo & O). assert (j <> v) by congruence. exists o. unfold hide in *. cbn in *. rewrite bindp_other in Eo by assumption. auto.
Qed.
Lemma looks_assign s e k v L j M : looks s e k v L -> e j = Some (Some M) -> exists s', pexec (PAssign v j) s = Ok s' /\ inv s' (names v (Some (Some M)) e).
Proof.
  intros H Ej. destruct (looks_others _ _ _ _ _ _ _ H Ej) as (x & Ex & O & Hj). destruct H as (Hkv & Ek & Ev & I & o & y & Eo & Ey & Oo & V & P & D & T). cbn [pexec]. unfold with_obj. rewrite Ey, Ex. replace (v =? j) with false by lia.
  pose proof (i_new _ _ I) as U. cbn in U. destruct (assign_owned _ y x M U) as (o' & h' & -> & O' & Mv); [congruence|now apply owned_legible|congruence|]. rewrite V in Mv. cbn [bind]. eexists. split; [reflexivity|].
  assert (J : inv (PSt (bindp v (Some o') (pobjs (hide v s))) h') (names v (Some (Some M)) e)) by (apply inv_upd; [assumption|unfold hide; cbn [pobjs pmemory]; rewrite bindp_same; exact Mv|exact O']).
  apply (inv_ext _ _ _ _ J); try reflexivity. intro l. unfold hide, bindp. cbn [pobjs]. destruct (l =? v); reflexivity.
Qed.
Lemma looks_copy s e k v L c : looks s e k v L -> e c = None -> c <> v -> exists s', pexec (PCopyTo c v) s = Ok s' /\ looks s' (names c (Some (Some L)) e) k v L /\ reads s' c L.
Proof.
  intros H Ec Hc. destruct (looks_legible _ _ _ _ _ H) as (o0 & y0 & Eo0 & Ey0 & _ & Lg). destruct H as (Hkv & Ek & Ev & I & o & y & Eo & Ey & Oo & V & P & D & T). assert (y0 = y) by congruence. subst y0. cbn [pexec]. unfold with_obj, if_new.
  assert (Nc : pobjs s c = None) by (pose proof (inv_none _ _ _ I Ec) as N; unfold hide in N; cbn in N; now rewrite bindp_other in N by assumption). rewrite Nc, Ey.
  pose proof (i_new _ _ I) as U. cbn in U. destruct (copy_owned _ y L U Lg) as (o' & h' & -> & O' & Mv). cbn [bind]. eexists. split; [reflexivity|]. assert (Hkc : k <> c) by congruence.
  assert (J : inv (PSt (bindp c (Some o') (pobjs (hide v s))) h') (names c (Some (Some L)) e)).
  { apply inv_upd; [assumption| |exact O']. unfold hide; cbn [pobjs pmemory]. rewrite bindp_other by assumption. rewrite Nc. exact Mv. }
  assert (J' : inv (hide v (PSt (bindp c (Some o') (pobjs s)) h')) (names c (Some (Some L)) e)).
  { apply (inv_ext _ _ _ _ J); try reflexivity. intro l. unfold hide, bindp. cbn [pobjs]. destruct (l =? v) eqn:E1, (l =? c) eqn:E2; try reflexivity. lia. }
  split.
  - split; [assumption|]. split; [unfold names; now replace (k =? c) with false by lia|]. split; [unfold names; now replace (v =? c) with false by lia|]. split; [exact J'|]. exists o, y. cbn [pobjs pmemory]. rewrite !bindp_other by congruence.
    split; [assumption|]. split; [assumption|]. split; [|auto].
    assert (Q := i_ok _ _ J' k). unfold hide, names in Q. cbn in Q. replace (k =? c) with false in Q by lia. rewrite bindp_other, bindp_other, Ek, Eo in Q by congruence. exact Q.
  - apply legible_reads with o'; [cbn [pobjs]; apply bindp_same|]. now apply owned_legible.
Qed.
(* the owner is assigned what its view shows *)
Lemma looks_assign_back s e k v L : looks s e k v L -> concat L <> [] -> pexec (PAssign k v) s = UB.
Proof.
  intros (Hkv & Ek & Ev & I & o & y & Eo & Ey & O & V & P & D & T) Hn. pose proof (i_new _ _ I) as U. cbn in U. cbn [pexec]. unfold with_obj. rewrite Eo, Ey. replace (k =? v) with false by lia. unfold po_assign.
  destruct O as (Vo & Do & To & C & M & A). rewrite Vo. destruct (free_ok _ (parr o) U A) as (h1 & -> & M1). cbn [bind]. destruct (dir_copy _ _ D) as (d & -> & _). cbn [bind]. rewrite P, T, To.
  assert (En : pcells (parr o) h1 = []) by (destruct (parr o) as [a|]; [|reflexivity]; cbn; destruct M1 as (_ & M1 & _); now rewrite M1 by (reflexivity || discriminate)). rewrite En.
  assert (0 < zlen (concat L)) by (destruct (concat L); [congruence|unfold zlen; cbn [length]; lia]). unfold bcopy. change (blen []) with 0. replace (zlen (concat L) <=? 0) with false by lia. rewrite andb_false_r. cbn [andb].
  replace (zlen (concat L) =? 0) with false by lia. reflexivity.
Qed.
(* a view of a pool without spare room grows *)
Lemma copy_exact s e k j L : inv s e -> e k = None -> e j = Some (Some L) -> exists s' o, pexec (PCopyTo k j) s = Ok s' /\ inv s' (names k (Some (Some L)) e) /\ pobjs s' k = Some o /\
  pmem o = zlen (concat L) /\ exists a, parr o = Some a.
Proof.
  intros I Ek Ej. destruct (step_ok (PCopyTo k j) s e (names k (Some (Some L)) e) I) as (s' & E & I'); [cbn; now rewrite Ej, Ek|]. destruct (inv_obj s' _ k L I') as (o & Eo & O); [unfold names; now rewrite Z.eqb_refl|].
  exists s', o. split; [exact E|]. split; [exact I'|]. split; [exact Eo|]. destruct (inv_obj _ _ _ _ I Ej) as (x & Ex & Ox). cbn [pexec] in E. unfold with_obj, if_new in E. rewrite (inv_none _ _ _ I Ek), Ex in E. unfold po_copy in E.
  destruct (bcopy _ _ _ _) as [b| |]; cbn [bind palloc] in E; try discriminate. destruct (it_copy _) as [d| |]; cbn [bind] in E; try discriminate. injection E as <-. cbn [pobjs] in Eo. rewrite bindp_same in Eo. injection Eo as <-. cbn.
  split; [apply Ox|eauto].
Qed.
Lemma free_next o h h' : pfree o h = Ok h' -> pnext h' = pnext h.
Proof. destruct o as [a|]; cbn; [|congruence]. destruct (parrs h a); [|discriminate]. intro E. injection E as <-. reflexivity. Qed.
Lemma alloc_next b h a h' : palloc b h = (a, h') -> a = pnext h.
Proof. intro E. injection E as <- _. reflexivity. Qed.
Lemma looks_grow s e k v L w o y a : looks s e k v L -> pobjs s k = Some o -> pobjs s v = Some y -> parr o = Some a -> pmem y = zlen (concat L) -> w <> [] -> pmem o = zlen (concat L) ->
  exists s', pexec (PPushTo v w) s = Ok s' /\ reads s' v (L ++ [w]) /\ (forall i, 0 <= i < zlen L -> znth L i <> [] -> prow k i s' = UB) /\ pexec (PDelete k) s' = UB /\
    exists s'' c, pexec (PDelete v) s' = Ok s'' /\ allocated s'' c /\ forall j, ~ points s'' j c.
Proof.
  intros (Hkv & Ek & Ev & I & o0 & y0 & Eo & Ey & O & V & P & D & T) Eo' Ey' Ea My Hw Mo. assert (o0 = o) by congruence. assert (y0 = y) by congruence. subst o0 y0. pose proof (i_new _ _ I) as U. cbn in U.
  assert (Hl : 0 < zlen w) by (destruct w; [congruence|unfold zlen; cbn [length]; lia]). pose proof O as (Vo & Do & To & C & M & A). pose proof (zlen_nonneg (concat L)) as Hz.
  cbn [pexec]. unfold with_obj. rewrite Ey. unfold po_push. fold (zlen w). rewrite My, T, To. replace (zlen (concat L) <? zlen (concat L) + zlen w) with true by lia. unfold po_reserve. rewrite My. set (n := Z.max _ _).
  replace (n <=? zlen (concat L)) with false by lia. rewrite P. assert (Mc : zlen (concat L) = blen (pcells (parr o) (pmemory s))) by congruence. destruct (cells_grow _ L n C) as (b & Eb & Cb & Lb); [rewrite <- Mc; lia|].
  assert (Eg : match parr o with None => Ok (bnew n) | Some _ => bcopy (pcells (parr o) (pmemory s)) (zlen (concat L)) (bnew n) 0 end = Ok b) by (destruct (parr o); [now rewrite Mc|discriminate]).
  rewrite Eg. cbn [bind]. destruct (free_ok _ (parr o) U A) as (h1 & Ef & M1). rewrite Ef. cbn [bind]. destruct (alloc_ok h1 b) as (c & h2 & El & M2 & Pc & Nc); [apply M1|]. rewrite El. cbn [parr ptail pdir pcells bind]. rewrite Pc, T, To.
  destruct (cells_write b L w Cb ltac:(lia)) as (b' & Eb' & Cb' & Lb'). rewrite Eb'. cbn [bind]. destruct (dir_push _ _ w D) as (d & Ed & Dd). fold (zlen w) in Ed. rewrite Ed. cbn [bind pstore]. rewrite Pc. cbn [pview]. eexists. split; [reflexivity|].
  assert (Hac : c <> a). { rewrite (alloc_next _ _ _ _ El), (free_next _ _ _ Ef). intro F. apply (A a Ea). apply U. lia. }
  set (h3 := PHeap _ _). assert (Na : parrs h2 a = None).
  { assert (Ha1 : parrs h1 a = None) by (destruct M1 as (_ & M1 & _); apply M1; [assumption|discriminate]). destruct M2 as (M2 & _). rewrite M2; [assumption|discriminate|]. intro F. injection F as F. congruence. }
  assert (Na3 : parrs h3 a = None) by (cbn; now replace (a =? c) with false by lia). assert (Pc3 : parrs h3 c = Some b') by (cbn; now rewrite Z.eqb_refl).
  split; [|split; [|split]].
  - eapply legible_reads; [cbn [pobjs]; apply bindp_same|]. unfold legible. cbn [pdir ptail parr pmemory pcells]. rewrite Pc3. split; [assumption|]. split; [|assumption]. rewrite concat_app, zlen_app. cbn [concat]. now rewrite app_nil_r.
  - intros i Hi Hr. unfold prow, with_obj. cbn [pobjs pmemory]. rewrite bindp_other by congruence. rewrite Eo. unfold ap_list, ap_size, pool_at. cbn [adir amem]. rewrite Ea. cbn [pcells]. rewrite Na3. destruct Do as (Td & Cd).
    assert (Er : irows (pdir o) = zlen L) by apply Td. rewrite Er. replace (i <? zlen L) with true by lia. cbn [assrt]. destruct (Cd i Hi) as [D1 D2]. rewrite (it_get_ok _ _ _ i 0 (off L i) Td) by (now rewrite Z.add_0_r).
    rewrite (it_get_ok _ _ _ i 1 _ Td D2). cbn [bind]. destruct (znth L i) as [|r0 r]; [congruence|]. replace (zlen (r0 :: r) <? 0) with false by (pose proof (zlen_nonneg (r0 :: r)); lia).
    unfold zlen. rewrite Nat2Z.id. cbn [length bread]. rewrite bget_none by apply cell_nil. reflexivity.
  - cbn [pobjs pmemory]. rewrite bindp_other by congruence. rewrite Eo. unfold po_delete. rewrite Vo, Ea. cbn [pfree]. now rewrite Na3.
  - cbn [pobjs pmemory]. rewrite bindp_same. unfold po_delete. cbn [pview]. rewrite V. cbn [bind]. eexists. exists c. split; [reflexivity|]. split; [unfold allocated; cbn [pmemory]; rewrite Pc3; discriminate|].
    intros j Hj. apply points_arr in Hj. cbn [pobjs] in Hj. unfold bindp in Hj. destruct (j =? v) eqn:Ej; [discriminate|].
    assert (Q : parrs (pmemory s) c <> None). { apply (okv_live _ _ _ c (i_ok _ _ I j)). unfold hide. cbn. unfold bindp. now rewrite Ej. }
    apply Q. destruct M1 as (M1 & _). rewrite <- M1; [assumption|congruence|discriminate].
Qed.
Lemma cells_prefix b L v : cells_of b (L ++ [v]) -> cells_of b L.
Proof.
  unfold cells_of. rewrite concat_app. cbn [concat]. rewrite app_nil_r, zlen_app. intros (H & C). pose proof (zlen_nonneg v). split; [lia|]. intros k Hk. rewrite C by lia. f_equal. apply app_nth1. unfold zlen in Hk. lia.
Qed.
Lemma dir_like d L v w : length v = length w -> dir_of d (L ++ [v]) -> dir_of d (L ++ [w]).
Proof.
  intros E (T & C). assert (Z1 : zlen (L ++ [w]) = zlen (L ++ [v])) by (rewrite !zlen_app; reflexivity). split; rewrite Z1; [assumption|]. intros i Hi. destruct (C i Hi) as [C1 C2]. rewrite C1, C2.
  rewrite zlen_app in Hi. change (zlen [v]) with 1 in Hi. split; f_equal; [rewrite !off_app1 by lia; reflexivity|]. destruct (Z.eq_dec i (zlen L)) as [->|].
  - rewrite !znth_app2 by lia. rewrite Z.sub_diag. unfold znth, zlen. cbn. now rewrite E.
  - rewrite !znth_app1 by lia. reflexivity.
Qed.
Lemma looks_both s e k v L o y a b : looks s e k v L -> pobjs s k = Some o -> pobjs s v = Some y -> pmem y = pmem o -> zlen (concat L) + zlen a <= pmem o -> length a = length b ->
  exists s', prun [PPushTo v a; PPushTo k b] s = Ok s' /\ reads s' v (L ++ [b]) /\ reads s' k (L ++ [b]).
Proof.
  intros (Hkv & Ek & Ev & I & o0 & y0 & Eo & Ey & O & V & P & D & T) Eo' Ey' My Hr Hab. assert (o0 = o) by congruence. assert (y0 = y) by congruence. subst o0 y0. pose proof (i_new _ _ I) as U. cbn in U.
  pose proof O as (Vo & Do & To & C & M & A). assert (Eab : zlen a = zlen b) by (unfold zlen; now rewrite Hab). unfold prun. cbn [foldM pexec]. unfold with_obj. rewrite Ey. unfold po_push at 1. fold (zlen a). rewrite My, T, To.
  replace (pmem o <? zlen (concat L) + zlen a) with false by lia. cbn [bind]. rewrite T, To, P. destruct (cells_write _ L a C ltac:(lia)) as (b1 & -> & C1 & L1). cbn [bind].
  destruct (dir_push _ _ a D) as (d1 & Ed1 & D1). fold (zlen a) in Ed1. rewrite Ed1. cbn [bind pobjs pmemory]. rewrite bindp_other by assumption. rewrite Eo. unfold po_push. fold (zlen b). rewrite To.
  replace (pmem o <? zlen (concat L) + zlen b) with false by lia. cbn [bind]. rewrite To. assert (N1 : parr o = None -> b1 = []) by (intro Hn; apply blen_nil; rewrite L1; now rewrite Hn). rewrite store_cells by assumption.
  apply cells_prefix in C1. destruct (cells_write _ L b C1 ltac:(lia)) as (b2 & -> & C2 & L2). cbn [bind]. destruct (dir_push _ _ b Do) as (d2 & Ed2 & D2). fold (zlen b) in Ed2. rewrite Ed2. cbn [bind pobjs pmemory]. eexists. split; [reflexivity|].
  assert (N2 : parr o = None -> b2 = []) by (intro Hn; apply blen_nil; rewrite L2, L1; now rewrite Hn).
  assert (Cf : pcells (parr o) (pstore (parr o) b2 (pstore (parr o) b1 (pmemory s))) = b2) by (apply store_cells; [now apply store_live|assumption]).
  assert (Tl : forall x : list Z, length x = length b -> zlen (concat L) + zlen x = zlen (concat (L ++ [b]))) by (intros x Hx; rewrite concat_app, zlen_app; cbn [concat]; rewrite app_nil_r; unfold zlen; now rewrite Hx).
  split.
  - eapply legible_reads; [cbn [pobjs]; rewrite bindp_other by congruence; apply bindp_same|]. unfold legible. cbn [pdir ptail parr pmemory]. rewrite Cf. split; [now apply dir_like with a|]. split; [now apply Tl|assumption].
  - eapply legible_reads; [cbn [pobjs]; apply bindp_same|]. unfold legible. cbn [pdir ptail parr pmemory]. rewrite Cf. split; [assumption|]. split; [now apply Tl|assumption].
Qed.

(* ---- tables *)
Lemma tensor_ok p n o : tab (adir p) 2 n -> 0 <= atail p <= blen (amem p) -> (forall i, 0 <= i < n -> cell (ibuf (adir p)) (i * 2) = Some (o i)) ->
  exists R, ap_to_tensor p = Ok R /\ blen R = n + atail p + 2 /\ cell R 0 = Some n /\ (forall i, 0 <= i < n -> cell R (i + 1) = Some (n + 2 + o i)) /\
    cell R (n + 1) = Some (atail p + n + 2) /\ forall k, 0 <= k < atail p -> cell R (n + 2 + k) = cell (amem p) k.
Proof.
  intros T Ht C. assert (T0 := T). destruct T0 as (_ & _ & Er & Hn & _). unfold ap_to_tensor, ap_size. rewrite Er.
  destruct (bput_ok (bnew (n + atail p + 2)) 0 n) as (R0 & -> & L0 & C0); [rewrite blen_new; lia|]. rewrite blen_new in L0 by lia. cbn [bind]. unfold forZ.
  destruct (foldM_inv (fun done R => blen R = n + atail p + 2 /\ cell R 0 = Some n /\ forall i, 0 <= i < zlen done -> cell R (i + 1) = Some (n + 2 + o i))
    (fun i R => do o <- it_get (adir p) i 0; bput R (i + 1) (n + 2 + o)) (zrange n) R0) as (R1 & -> & L1 & C1 & D1).
  - split; [assumption|]. split; [now rewrite C0|]. intros i Hi. change (zlen []) with 0 in Hi. lia.
  - intros done i rest R El (L & Cz & D). destruct (zrange_split _ _ _ _ El) as [Ei Hi]. rewrite (it_get_ok _ _ _ i 0 (o i) T) by (rewrite Z.add_0_r; auto). cbn [bind].
    destruct (bput_ok R (i + 1) (n + 2 + o i)) as (R' & -> & L' & C'); [lia|]. exists R'. split; [reflexivity|]. split; [lia|]. split; [rewrite C'; now replace (0 =? i + 1) with false by lia|].
    intros l Hl. rewrite zlen_app in Hl. change (zlen [i]) with 1 in Hl. fold (zlen done) in Ei. rewrite C'. destruct (l + 1 =? i + 1) eqn:E; [do 2 f_equal; f_equal; lia|]. apply D. lia.
  - assert (Zz : zlen (zrange n) = n) by (unfold zlen; rewrite zrange_length; lia). rewrite Zz in D1. cbn [bind]. destruct (bput_ok R1 (n + 1) (atail p + n + 2)) as (R2 & -> & L2 & C2); [lia|]. cbn [bind].
    destruct (bcopy_ok (amem p) (atail p) R2 (n + 2)) as (R3 & -> & L3 & C3); [lia|lia|lia|]. exists R3. split; [reflexivity|]. split; [lia|]. rewrite !C3, !C2.
    replace (n + 2 <=? 0) with false by lia. replace (n + 2 <=? n + 1) with false by lia. cbn [andb]. replace (0 =? n + 1) with false by lia. rewrite Z.eqb_refl. split; [assumption|]. split; [|split; [reflexivity|]].
    + intros i Hi. rewrite C3, C2. replace (n + 2 <=? i + 1) with false by lia. cbn [andb]. replace (i + 1 =? n + 1) with false by lia. auto.
    + intros k Hk. rewrite C3. replace (n + 2 <=? n + 2 + k) with true by lia. replace (n + 2 + k <? _) with true by lia. cbn [andb]. f_equal. lia.
Qed.
Lemma slice_cells (R : buf) a (v : list Z) : 0 <= a -> (forall k, 0 <= k < zlen v -> cell R (a + k) = Some (nth (Z.to_nat k) v 0)) -> a + zlen v <= blen R ->
  firstn (length v) (skipn (Z.to_nat a) R) = map Some v.
Proof.
  intros Ha C Hl. unfold blen, zlen in *. apply (nth_ext _ _ None None); [rewrite firstn_length, skipn_length, map_length; lia|]. intros n Hn. rewrite firstn_length, skipn_length in Hn.
  assert (Hv : (n < length v)%nat) by lia. rewrite (nth_indep (map Some v) None (Some 0)) by (now rewrite map_length). rewrite map_nth.
  specialize (C (Z.of_nat n) ltac:(lia)). unfold cell in C. replace (0 <=? a + Z.of_nat n) with true in C by lia. rewrite Nat2Z.id in C. rewrite <- C.
  assert (F1 : forall (l : buf) m n, (n < m)%nat -> nth n (firstn m l) None = nth n l None) by (induction l as [|x l IH]; intros [|m] [|k] Hk; cbn; try lia; auto; apply IH; lia).
  assert (F2 : forall m (l : buf) n, nth n (skipn m l) None = nth (m + n) l None) by (induction m as [|m IH]; intros [|x l] k; cbn; auto; now destruct k).
  rewrite F1 by assumption. rewrite F2. f_equal. lia.
Qed.
Lemma packed_encodes p L : packed p L -> exists R, ap_to_tensor p = Ok R /\ encodes R L.
Proof.
  intros (T & Et & Eb & D & C). pose proof (zlen_nonneg (concat L)). destruct (tensor_ok p (zlen L) (off L) T) as (R & E & L1 & C0 & Co & Ce & Cd); [lia|intros i Hi; now apply D|]. exists R. split; [exact E|].
  assert (Nn : forall i, 0 <= i -> nth (Z.to_nat i) R None = cell R i) by (intros i Hi; unfold cell; now replace (0 <=? i) with true by lia). unfold encodes. change (@zl) with (@zlen).
  split; [unfold blen in L1; unfold zlen at 1; lia|]. split; [now rewrite <- C0, <- Nn by lia|]. intros i Hi. exists (zlen L + 2 + off L i), (zlen L + 2 + off L (i + 1)). rewrite !Nn by lia. split; [now apply Co|].
  destruct (off_in L i Hi). rewrite row_znth. pose proof (zlen_nonneg (znth L i)). rewrite off_succ by assumption. split; [|split; [lia|split; [change (zlen R) with (blen R); lia|]]].
  - destruct (Z.eq_dec (i + 1) (zlen L)) as [El|Hne].
    + replace (i + 2) with (zlen L + 1) by lia. rewrite Ce, Et. f_equal. rewrite <- off_succ by assumption. rewrite El, off_all. lia.
    + replace (i + 2) with (i + 1 + 1) by lia. rewrite Co by lia. now rewrite off_succ by assumption.
  - replace (Z.to_nat _) with (length (znth L i)) by (unfold zlen; lia). apply slice_cells; [lia| |lia]. intros k Hk. rewrite <- Z.add_assoc. rewrite Cd by lia. rewrite C by lia. f_equal. now apply off_nth.
Qed.
