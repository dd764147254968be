(* Prop_PoolMem.v -- C146-C148: pools of integer arrays as values, their views, and their tables. *)
From Verif Require Import Base BaseFacts Map Model_Containers Proofs_Containers Proofs_Containers2 Proofs_Containers3 Model_PoolMem Spec_PoolMem Proofs_PoolMem Proofs_PoolMem2.
Local Open Scope Z_scope.

(* ---- C146 *)
(* every program in the domain runs, leaves the values it means, and every allocated array has one owner in scope *)
Theorem C146_values : forall cs e, pmeans_all cs no_pools = Some e ->
  exists s, prun cs pst0 = Ok s /\ (forall k L, e k = Some (Some L) -> reads s k L) /\ tidy s e.
Proof.
  intros cs e E. destruct (run_ok cs pst0 no_pools e inv0 E) as (s & R & I). exists s. split; [exact R|]. split; [intros k L; now apply inv_reads|now apply inv_tidy].
Qed.
Print Assumptions C146_values.
(* once no pool is in scope nothing is allocated *)
Theorem C146_all_returned : forall cs e s a, pmeans_all cs no_pools = Some e -> (forall k, e k = None) -> prun cs pst0 = Ok s -> ~ allocated s a.
Proof.
  intros cs e s a E N R H. destruct (run_ok cs pst0 no_pools e inv0 E) as (s' & R' & I). assert (s' = s) by congruence. subst s'.
  destruct (i_all _ _ I a H) as (k & Hk). rewrite (inv_none _ _ _ I (N k)) in Hk. discriminate.
Qed.
Print Assumptions C146_all_returned.
Definition ex_cmds : list pcmd :=
  [PNew 0; PPushTo 0 [1; 2; 3]; PGrow 0 50; PPushTo 0 []; PCopyTo 1 0; PPushTo 1 [4]; PSet 0 0 1 9; PMoveTo 2 0; PAssign 0 1; PMoveAssign 1 2; PPushTo 0 [5; 6]].
(* what is seen of the state after a program *)
Definition after {A} (cs : list pcmd) (f : pst -> res A) : res A := do s <- prun cs pst0; f s.
Definition meaning (cs : list pcmd) (k : Z) : option (option (option (list (list Z)))) := match pmeans_all cs no_pools with Some e => Some (e k) | None => None end.
Example C146_case : meaning ex_cmds 0 = Some (Some (Some [[1; 2; 3]; []; [4]; [5; 6]])) /\ meaning ex_cmds 1 = Some (Some (Some [[1; 9; 3]; []])) /\ meaning ex_cmds 2 = Some (Some None) /\
  after ex_cmds (prow 0 3) = Ok [5; 6] /\ after ex_cmds (prow 1 0) = Ok [1; 9; 3] /\ after ex_cmds (psize 2) = Ok 2 /\ after ex_cmds (prow 2 0) = UB.
Proof. vm_compute. repeat split. Qed.
Example C146_returned_case : let cs := ex_cmds ++ [PDelete 1; PDelete 2; PDelete 0] in meaning cs 0 = Some None /\ meaning cs 1 = Some None /\ meaning cs 2 = Some None.
Proof. vm_compute. repeat split. Qed.
(* a pool assigned to itself keeps its size and loses its rows *)
Theorem C146_self_assignment_refuted : forall cs e k L i, pmeans_all cs no_pools = Some e -> e k = Some (Some L) -> 0 <= i < zl L ->
  exists s, prun (cs ++ [PAssign k k]) pst0 = Ok s /\ psize k s = Ok (zl L) /\ prow k i s = UB.
Proof.
  intros cs e k L i E Ek Hi. destruct (run_ok cs pst0 no_pools e inv0 E) as (s & R & I). destruct (assign_self s e k L i I Ek Hi) as (s' & E' & H). exists s'. rewrite prun_app, R. cbn [bind]. unfold prun. cbn [foldM]. rewrite E'. split; [reflexivity|exact H].
Qed.
Print Assumptions C146_self_assignment_refuted.
Theorem C146_self_move_refuted : forall cs e k L i, pmeans_all cs no_pools = Some e -> e k = Some (Some L) -> 0 <= i < zl L ->
  exists s, prun (cs ++ [PMoveAssign k k]) pst0 = Ok s /\ psize k s = Ok (zl L) /\ prow k i s = UB.
Proof.
  intros cs e k L i E Ek Hi. destruct (run_ok cs pst0 no_pools e inv0 E) as (s & R & I). destruct (move_self s e k L i I Ek Hi) as (s' & E' & H). exists s'. rewrite prun_app, R. cbn [bind]. unfold prun. cbn [foldM]. rewrite E'. split; [reflexivity|exact H].
Qed.
Print Assumptions C146_self_move_refuted.
(* a pool whose rows were moved away still reports its old size, and reading it, pushing to it and copying it are undefined *)
Theorem C146_moved_from_refuted : forall cs e k j L, pmeans_all cs no_pools = Some e -> e k = None -> e j = Some (Some L) -> L <> [] ->
  exists s, prun (cs ++ [PMoveTo k j]) pst0 = Ok s /\ reads s k L /\ psize j s = Ok (zl L) /\ (forall i, 0 <= i < zl L -> prow j i s = UB) /\
    (forall v, prun (cs ++ [PMoveTo k j; PPushTo j v]) pst0 = UB) /\ (forall c, e c = None -> c <> k -> prun (cs ++ [PMoveTo k j; PCopyTo c j]) pst0 = UB).
Proof.
  intros cs e k j L E Ek Ej Hn. destruct (run_ok cs pst0 no_pools e inv0 E) as (s & R & I). destruct (moved_from s e k j L I Ek Ej Hn) as (s' & E' & Sz & Rw & Pu & Co). exists s'.
  assert (J : exists e', pmeans (PMoveTo k j) e = Some e' /\ e' k = Some (Some L) /\ forall c, e c = None -> c <> k -> e' c = None).
  { eexists. split; [cbn; rewrite Ek, Ej; reflexivity|]. assert (k <> j) by congruence. unfold names. replace (k =? j) with false by lia. rewrite Z.eqb_refl. split; [reflexivity|]. intros c Hc Hk.
    assert (c <> j) by congruence. replace (c =? j) with false by lia. now replace (c =? k) with false by lia. }
  destruct J as (e' & Em & Ek' & Ec'). destruct (step_ok _ _ _ _ I Em) as (s2 & E2 & I2). assert (s2 = s') by congruence. subst s2.
  split; [rewrite prun_app, R; cbn [bind]; unfold prun; cbn [foldM]; now rewrite E'|]. split; [now apply inv_reads with e'|]. split; [exact Sz|]. split; [exact Rw|]. split.
  - intro v. rewrite prun_app, R. cbn [bind]. unfold prun. cbn [foldM]. rewrite E'. cbn [bind]. now rewrite Pu.
  - intros c Hc Hk. rewrite prun_app, R. cbn [bind]. unfold prun. cbn [foldM]. rewrite E'. cbn [bind]. rewrite Co; [reflexivity|]. apply (inv_none _ _ _ I2). now apply Ec'.
Qed.
Print Assumptions C146_moved_from_refuted.
(* an empty pool with room reserved can be used again after a move construction from it, not after a move assignment from it *)
Theorem C146_moved_room_refuted : forall n v, v <> [] -> zl v <= n ->
  prun [PNew 0; PGrow 0 n; PNew 1; PMoveAssign 1 0; PPushTo 0 v] pst0 = UB /\
  exists s, prun [PNew 0; PGrow 0 n; PMoveTo 1 0; PPushTo 0 v] pst0 = Ok s /\ reads s 0 [v].
Proof.
  intros n v Hv Hn. assert (Hl : 0 < zlen v) by (destruct v; [congruence|unfold zlen; cbn [length]; lia]). change (zl v) with (zlen v) in Hn.
  set (h := PHeap (fun a => if a =? 0 then Some (bnew n) else None) 1). set (o := PObj (Some 0) n 0 (it_noalloc 0 2) false).
  assert (R1 : pexec (PGrow 0 n) (PSt (bindp 0 (Some po_new) (pobjs pst0)) pheap0) = Ok (PSt (bindp 0 (Some o) (bindp 0 (Some po_new) (pobjs pst0))) h)).
  { cbn [pexec]. unfold with_obj. cbn [pobjs pmemory]. rewrite bindp_same. unfold po_reserve. cbn [po_new pmem parr]. replace (n <=? 0) with false by lia. reflexivity. }
  split.
  - unfold prun. cbn [foldM]. change (pexec (PNew 0) pst0) with (Ok (PSt (bindp 0 (Some po_new) (pobjs pst0)) pheap0)). cbn [bind]. rewrite R1. cbn [bind].
    set (x := PObj None n 0 (it_noalloc 0 2) false). set (f := bindp 0 (Some o) _).
    change (pexec (PNew 1) (PSt f h)) with (Ok (PSt (bindp 1 (Some po_new) f) h)). cbn [bind].
    change (pexec (PMoveAssign 1 0) (PSt (bindp 1 (Some po_new) f) h)) with (Ok (PSt (bindp 0 (Some x) (bindp 1 (Some o) (bindp 1 (Some po_new) f))) h)). cbn [bind pexec]. unfold with_obj. cbn [pobjs pmemory]. rewrite bindp_same.
    unfold po_push. cbn [x pmem ptail parr pdir]. fold (zlen v). replace (n <? 0 + zlen v) with false by lia. cbn [bind parr pcells ptail]. destruct v as [|y v]; [congruence|]. reflexivity.
  - unfold prun. cbn [foldM]. change (pexec (PNew 0) pst0) with (Ok (PSt (bindp 0 (Some po_new) (pobjs pst0)) pheap0)). cbn [bind]. rewrite R1. cbn [bind]. set (f := bindp 0 (Some o) _).
    change (pexec (PMoveTo 1 0) (PSt f h)) with (Ok (PSt (bindp 0 (Some po_new) (bindp 1 (Some o) f)) h)). cbn [bind pexec]. unfold with_obj. cbn [pobjs pmemory]. rewrite bindp_same.
    assert (U : unused h) by (intros a Ha; cbn in *; replace (a =? 0) with false by lia; reflexivity). destruct (push_owned v h po_new [] U (new_owned h)) as (o' & h' & -> & O' & _). cbn [bind].
    eexists. split; [reflexivity|]. apply legible_reads with o'; [apply bindp_same|]. now apply owned_legible.
Qed.
Print Assumptions C146_moved_room_refuted.

(* ---- C147 *)
(* a view and the pool it looks at share their entries; deleting the view leaves the pool as it is, and any program may follow *)
Theorem C147_shares : forall cs e k v L ws, pmeans_all cs no_pools = Some e -> e k = Some (Some L) -> e v = None -> in_place ws L ->
  exists s, prun (cs ++ PView v k :: wcmds v k ws) pst0 = Ok s /\ reads s k (wrote ws L) /\ reads s v (wrote ws L) /\
    (forall j M, j <> k -> e j = Some (Some M) -> reads s j M) /\
    forall ds e', pmeans_all ds (names k (Some (Some (wrote ws L))) e) = Some e' ->
      exists s', prun (PDelete v :: ds) s = Ok s' /\ (forall j M, e' j = Some (Some M) -> reads s' j M) /\ tidy s' e'.
Proof.
  intros cs e k v L ws E Ek Ev W. destruct (run_ok cs pst0 no_pools e inv0 E) as (s0 & R & I). destruct (view_looks s0 e k v L I Ek Ev) as (s1 & E1 & H1 & _). destruct (looks_sets ws s1 e k v L H1 W) as (s & e1 & E2 & H2 & N).
  exists s. split; [rewrite prun_app, R; cbn [bind]; unfold prun in *; cbn [foldM]; rewrite E1; exact E2|]. destruct (looks_legible _ _ _ _ _ H2) as (o & y & Eo & Ey & O & Ly).
  split; [apply legible_reads with o; [assumption|now apply owned_legible]|]. split; [now apply legible_reads with y|]. split.
  - intros j M Hj Ej. assert (Ej' : e1 j = Some (Some M)) by (rewrite N; unfold names; now replace (j =? k) with false by lia). destruct (looks_others _ _ _ _ _ _ _ H2 Ej') as (x & Ex & Ox & _). apply legible_reads with x; [assumption|now apply owned_legible].
  - intros ds e' Ed. destruct (looks_delete _ _ _ _ _ H2) as (s2 & E3 & I3). assert (I4 : inv s2 (names k (Some (Some (wrote ws L))) e)) by (apply (inv_ext _ _ _ _ I3); try reflexivity; intro l; symmetry; apply N).
    destruct (run_ok ds s2 _ e' I4 Ed) as (s' & R' & I'). exists s'. split; [unfold prun in *; cbn [foldM]; rewrite E3; exact R'|]. split; [intros j M; now apply inv_reads|now apply inv_tidy].
Qed.
Print Assumptions C147_shares.
Example C147_case : let cs := [PNew 0; PPushTo 0 [1; 2]; PPushTo 0 [3]] ++ PView 5 0 :: wcmds 5 0 [(true, (0, 1, 7)); (false, (1, 0, 8))] in
  in_place [(true, (0, 1, 7)); (false, (1, 0, 8))] [[1; 2]; [3]] /\ wrote [(true, (0, 1, 7)); (false, (1, 0, 8))] [[1; 2]; [3]] = [[1; 7]; [8]] /\
  after cs (prow 0 0) = Ok [1; 7] /\ after cs (prow 5 0) = Ok [1; 7] /\ after cs (prow 0 1) = Ok [8] /\ after cs (prow 5 1) = Ok [8].
Proof. vm_compute. repeat split. Qed.
(* a view that is assigned to becomes a pool of its own and leaves the pool it looked at *)
Theorem C147_assigned_view : forall cs e k v L j M, pmeans_all cs no_pools = Some e -> e k = Some (Some L) -> e v = None -> e j = Some (Some M) ->
  exists s, prun (cs ++ [PView v k; PAssign v j]) pst0 = Ok s /\ reads s v M /\ (forall i N, e i = Some (Some N) -> reads s i N) /\ tidy s (names v (Some (Some M)) e).
Proof.
  intros cs e k v L j M E Ek Ev Ej. destruct (run_ok cs pst0 no_pools e inv0 E) as (s0 & R & I). destruct (view_looks s0 e k v L I Ek Ev) as (s1 & E1 & H1 & _). destruct (looks_assign _ _ _ _ _ _ _ H1 Ej) as (s & E2 & I2). exists s.
  split; [rewrite prun_app, R; cbn [bind]; unfold prun; cbn [foldM]; rewrite E1; cbn [bind]; now rewrite E2|]. split; [apply (inv_reads _ _ _ _ I2); unfold names; now rewrite Z.eqb_refl|]. split; [|now apply inv_tidy].
  intros i N Ei. apply (inv_reads _ _ _ _ I2). unfold names. destruct (i =? v) eqn:F; [|assumption]. apply Z.eqb_eq in F. congruence.
Qed.
Print Assumptions C147_assigned_view.
(* a copy of a view is a pool of its own *)
Theorem C147_copied_view : forall cs e k v L c, pmeans_all cs no_pools = Some e -> e k = Some (Some L) -> e v = None -> e c = None -> c <> v ->
  exists s, prun (cs ++ [PView v k; PCopyTo c v; PDelete v]) pst0 = Ok s /\ reads s c L /\ (forall i N, e i = Some (Some N) -> reads s i N) /\ tidy s (names c (Some (Some L)) e).
Proof.
  intros cs e k v L c E Ek Ev Ec Hc. destruct (run_ok cs pst0 no_pools e inv0 E) as (s0 & R & I). destruct (view_looks s0 e k v L I Ek Ev) as (s1 & E1 & H1 & _). destruct (looks_copy _ _ _ _ _ c H1 Ec Hc) as (s2 & E2 & H2 & _).
  destruct (looks_delete _ _ _ _ _ H2) as (s & E3 & I3). exists s. split; [rewrite prun_app, R; cbn [bind]; unfold prun; cbn [foldM]; rewrite E1; cbn [bind]; rewrite E2; cbn [bind]; now rewrite E3|].
  split; [apply (inv_reads _ _ _ _ I3); unfold names; now rewrite Z.eqb_refl|]. split; [|now apply inv_tidy].
  intros i N Ei. apply (inv_reads _ _ _ _ I3). unfold names. destruct (i =? c) eqn:F; [|assumption]. apply Z.eqb_eq in F. congruence.
Qed.
Print Assumptions C147_copied_view.
(* a row pushed through a view of a pool without spare room frees the pool's array: its rows and its destruction are undefined,
   and the array the view grew into is never freed *)
Theorem C147_growth_refuted : forall cs e k L p v w, pmeans_all cs no_pools = Some e -> e k = Some (Some L) -> e p = None -> e v = None -> p <> v -> w <> [] ->
  exists s, prun (cs ++ [PCopyTo p k; PView v p; PPushTo v w]) pst0 = Ok s /\ reads s v (L ++ [w]) /\
    (forall i, 0 <= i < zl L -> row_of L i <> [] -> prow p i s = UB) /\ pexec (PDelete p) s = UB /\
    exists s' a, pexec (PDelete v) s = Ok s' /\ allocated s' a /\ forall j, ~ points s' j a.
Proof.
  intros cs e k L p v w E Ek Ep Ev Hpv Hw. destruct (run_ok cs pst0 no_pools e inv0 E) as (s0 & R & I). destruct (copy_exact s0 e p k L I Ep Ek) as (s1 & o & E1 & I1 & Eo & Mo & a & Ea).
  destruct (view_looks s1 _ p v L I1) as (s2 & E2 & H2 & Hm & Ho); [unfold names; now rewrite Z.eqb_refl|unfold names; now replace (v =? p) with false by lia|].
  assert (Eo2 : pobjs s2 p = Some o) by (now rewrite Ho). pose proof H2 as (_ & _ & _ & _ & o' & y & _ & Ey & _).
  assert (My : pmem y = zlen (concat L)).
  { cbn [pexec] in E2. unfold if_new, with_obj in E2. destruct (pobjs s1 v) eqn:Ev1; [discriminate|]. rewrite Eo in E2. unfold po_view in E2. destruct (it_copy _) as [d| |]; cbn [bind] in E2; try discriminate. injection E2 as <-. cbn [pobjs] in Ey.
    rewrite bindp_same in Ey. injection Ey as <-. exact Mo. }
  destruct (looks_grow s2 _ p v L w o y a H2 Eo2 Ey Ea My Hw Mo) as (s & E3 & X). exists s. split; [|exact X].
  rewrite prun_app, R. cbn [bind]. unfold prun. cbn [foldM]. rewrite E1. cbn [bind]. rewrite E2. cbn [bind]. now rewrite E3.
Qed.
Print Assumptions C147_growth_refuted.
(* with spare room, rows pushed through the view and through the pool overwrite each other *)
Theorem C147_pushes_refuted : forall cs e k L v n a b, pmeans_all cs no_pools = Some e -> e k = Some (Some L) -> e v = None -> length a = length b -> zl (concat L) + zl a <= n ->
  exists s, prun (cs ++ [PGrow k n; PView v k; PPushTo v a; PPushTo k b]) pst0 = Ok s /\ reads s v (L ++ [b]).
Proof.
  intros cs e k L v n a b E Ek Ev Hab Hn. destruct (run_ok cs pst0 no_pools e inv0 E) as (s0 & R & I). destruct (inv_obj _ _ _ _ I Ek) as (o0 & Eo0 & O0). destruct (reserve_owned n _ o0 L (i_new _ _ I) O0) as (o & h1 & Er & O1 & _ & Rn).
  destruct (step_ok (PGrow k n) s0 e e I) as (s1 & E1 & I1); [cbn; now rewrite Ek|]. assert (Eo : pobjs s1 k = Some o) by (cbn [pexec] in E1; unfold with_obj in E1; rewrite Eo0, Er in E1; cbn [bind] in E1; injection E1 as <-; apply bindp_same).
  destruct (view_looks s1 e k v L I1 Ek Ev) as (s2 & E2 & H2 & Hm & Ho). assert (Hkv : k <> v) by congruence. assert (Eo2 : pobjs s2 k = Some o) by (now rewrite Ho). pose proof H2 as (_ & _ & _ & _ & o' & y & _ & Ey & _).
  assert (My : pmem y = pmem o).
  { cbn [pexec] in E2. unfold if_new, with_obj in E2. destruct (pobjs s1 v) eqn:Ev1; [discriminate|]. rewrite Eo in E2. unfold po_view in E2. destruct (it_copy _) as [d| |]; cbn [bind] in E2; try discriminate. injection E2 as <-. cbn [pobjs] in Ey.
    rewrite bindp_same in Ey. injection Ey as <-. reflexivity. }
  change (@zl) with (@zlen) in Hn. destruct (looks_both s2 e k v L o y a b H2 Eo2 Ey My ltac:(lia) Hab) as (s & E3 & X & _). exists s. split; [|exact X].
  rewrite prun_app, R. cbn [bind]. unfold prun in *. cbn [foldM] in *. rewrite E1. cbn [bind]. rewrite E2. exact E3.
Qed.
Print Assumptions C147_pushes_refuted.
Example C147_pushes_case : after ([PNew 0; PPushTo 0 [1]] ++ [PGrow 0 10; PView 5 0; PPushTo 5 [2; 3]; PPushTo 0 [4; 5]]) (prow 5 1) = Ok [4; 5].
Proof. vm_compute. reflexivity. Qed.
(* assigning a view back to the pool it looks at is undefined *)
Theorem C147_assigned_back_refuted : forall cs e k L v, pmeans_all cs no_pools = Some e -> e k = Some (Some L) -> e v = None -> concat L <> [] ->
  prun (cs ++ [PView v k; PAssign k v]) pst0 = UB.
Proof.
  intros cs e k L v E Ek Ev Hn. destruct (run_ok cs pst0 no_pools e inv0 E) as (s0 & R & I). destruct (view_looks s0 e k v L I Ek Ev) as (s1 & E1 & H1 & _).
  rewrite prun_app, R. cbn [bind]. unfold prun. cbn [foldM]. rewrite E1. cbn [bind]. now rewrite (looks_assign_back _ _ _ _ _ H1 Hn).
Qed.
Print Assumptions C147_assigned_back_refuted.

(* ---- C148 *)
Theorem C148_table : forall cs e k L, pmeans_all cs no_pools = Some e -> e k = Some (Some L) ->
  exists s R, prun cs pst0 = Ok s /\ ptensor k s = Ok R /\ encodes R L.
Proof.
  intros cs e k L E Ek. destruct (run_ok cs pst0 no_pools e inv0 E) as (s & R & I). destruct (inv_obj _ _ _ _ I Ek) as (o & Eo & O).
  destruct (packed_encodes _ _ (legible_packed _ _ _ (owned_legible _ _ _ O))) as (T & Et & Eh). exists s, T. split; [exact R|]. split; [|exact Eh]. unfold ptensor, with_obj. now rewrite Eo.
Qed.
Print Assumptions C148_table.
Example C148_case : after [PNew 0; PPushTo 0 [7; 8]; PPushTo 0 []; PPushTo 0 [9]] (ptensor 0) = Ok (map Some [3; 5; 7; 7; 8; 7; 8; 9]) /\ encodes (map Some [3; 5; 7; 7; 8; 7; 8; 9]) [[7; 8]; []; [9]].
Proof.
  split; [vm_compute; reflexivity|]. split; [reflexivity|]. split; [reflexivity|]. intros i Hi. unfold zl in Hi. cbn in Hi. assert (i = 0 \/ i = 1 \/ i = 2) as [-> | [-> | ->]] by lia.
  - exists 5, 7. vm_compute. repeat split; discriminate.
  - exists 7, 7. vm_compute. repeat split; discriminate.
  - exists 7, 8. vm_compute. repeat split; discriminate.
Qed.
(* when rows have spare room (lists made from heads and lengths) the table gives every row its room, not its length *)
Theorem C148_room_refuted : forall heads lens i, Forall (fun x => 0 <= x) lens -> length heads = length lens -> 0 <= i < Z.of_nat (length lens) ->
  exists p R a b, hl_make false heads lens = Ok p /\ ap_to_tensor p = Ok R /\ ap_list p i = Ok [nth (Z.to_nat i) heads 0] /\
    nth (Z.to_nat (i + 1)) R None = Some a /\ nth (Z.to_nat (i + 2)) R None = Some b /\ b - a = nth (Z.to_nat i) lens 0 + 1.
Proof.
  intros heads lens i F Hl Hi. destruct (hl_make_hrep heads lens F Hl) as (p & E & H). pose proof (hrep_prep _ _ _ H) as P. destruct H as (_ & Hz & (T & A & B & C) & _). fold (zlen lens) in Hi.
  pose proof (offs_mono lens F 0 (zlen lens) ltac:(lia) ltac:(lia)) as M0. rewrite offs_0 in M0.
  destruct (tensor_ok p (zlen lens) (offs lens) T ltac:(lia) C) as (R & ER & L1 & C0 & Co & Ce & _).
  assert (Nn : forall i, 0 <= i -> nth (Z.to_nat i) R None = cell R i) by (intros l Hx; unfold cell; now replace (0 <=? l) with true by lia).
  exists p, R, (zlen lens + 2 + offs lens i), (zlen lens + 2 + offs lens (i + 1)). split; [exact E|]. split; [exact ER|].
  split; [rewrite (prep_list _ _ i P ltac:(rewrite Hz; lia)); f_equal; unfold znth; rewrite (nth_indep _ [] ((fun h => [h]) 0)) by (rewrite map_length, Hl; unfold zlen in Hi; lia); now rewrite (map_nth (fun h => [h]))|].
  rewrite !Nn by lia. split; [now apply Co|]. split; [|rewrite offs_succ by lia; lia]. destruct (Z.eq_dec (i + 1) (zlen lens)) as [El|Hne].
  - replace (i + 2) with (zlen lens + 1) by lia. rewrite Ce, A, El. f_equal. lia.
  - replace (i + 2) with (i + 1 + 1) by lia. apply Co; lia.
Qed.
Print Assumptions C148_room_refuted.
Example C148_room_case : exists p R, hl_make false [10; 20] [2; 1] = Ok p /\ ap_to_tensor p = Ok R /\ R = [Some 2; Some 4; Some 7; Some 9; Some 10; None; None; Some 20; None].
Proof. eexists. eexists. split; [reflexivity|]. split; [reflexivity|]. vm_compute. reflexivity. Qed.
(* the hypotheses of the refutations are met: a pool with rows, then the offending statement *)
Example C146_refuted_cases : let cs := [PNew 0; PPushTo 0 [1; 2]] in meaning cs 0 = Some (Some (Some [[1; 2]])) /\ meaning cs 1 = Some None /\
  after (cs ++ [PAssign 0 0]) (psize 0) = Ok 1 /\ after (cs ++ [PAssign 0 0]) (prow 0 0) = UB /\ after (cs ++ [PMoveAssign 0 0]) (prow 0 0) = UB /\ after (cs ++ [PMoveTo 1 0]) (prow 0 0) = UB /\
  after (cs ++ [PMoveTo 1 0; PPushTo 0 [3]]) (psize 0) = UB /\ after [PNew 0; PGrow 0 9; PNew 1; PMoveAssign 1 0; PPushTo 0 [3]] (psize 0) = UB.
Proof. vm_compute. repeat split. Qed.
Example C147_refuted_cases : let cs := [PNew 0; PPushTo 0 [1; 2]] in after (cs ++ [PCopyTo 3 0; PView 5 3; PPushTo 5 [7]]) (prow 5 1) = Ok [7] /\
  after (cs ++ [PCopyTo 3 0; PView 5 3; PPushTo 5 [7]]) (prow 3 0) = UB /\ after (cs ++ [PView 5 0; PAssign 0 5]) (psize 0) = UB /\
  after (cs ++ [PView 5 0; PCopyTo 6 5; PDelete 5]) (prow 6 0) = Ok [1; 2] /\ after (cs ++ [PNew 8; PPushTo 8 [4]; PView 5 0; PAssign 5 8]) (prow 5 0) = Ok [4].
Proof. vm_compute. repeat split. Qed.
