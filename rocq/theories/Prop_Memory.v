(* Prop_Memory.v -- C22, C23: the pooled memory manager over arbitrary histories of requests and releases. *)
From Verif Require Import Base BaseFacts Model_Memory Proofs_Memory.
Local Open Scope Z_scope.

(* C22 *)
(* requests for a non-negative number of bytes; releases of anything *)
Definition nonneg_requests (h : list mop) : Prop :=
  Forall (fun o => match o with Malloc n => 0 <= n | Free _ => True end) h.
(* Under either reading of the stale hash-map iterator (strict), after every history that runs without
   undefined behaviour the live regions lie in the arena, are 128-aligned and pairwise disjoint; also the
   regions have distinct start addresses, so even regions of 0 requested bytes are told apart *)
Theorem C22_no_overlap_partial : forall strict h sz s live, 0 <= sz -> nonneg_requests h -> mrun strict h sz = Ok (s, live) ->
  (forall p n, In (p, n) live -> 0 <= p /\ p + n <= msize s /\ (128 | p)) /\
  NoDup (map fst live) /\
  (forall p n q k, In (p, n) live -> In (q, k) live -> p <> q -> p + n <= q \/ q + k <= p) /\
  msize s <= Z.max 1 sz.
Proof.
  intros strict h sz s live Hs Hh E. pose proof (mrun_inv _ _ _ _ _ Hs Hh E) as I.
  split; [intros; eapply inv_bounds; eauto|]. split; [eapply inv_nodup; eauto|]. split; [intros; eapply inv_disj; eauto|].
  rewrite (mrun_msize _ _ _ _ _ E). unfold mm_init. pose proof (Z.mul_div_le sz 128 ltac:(lia)).
  destruct (_ =? 0); cbn; lia.
Qed.
Print Assumptions C22_no_overlap_partial.
Definition ex_history : list mop := [Malloc 100; Malloc 300; Malloc 1; Malloc 5000; Free 128; Malloc 129; Free 0; Malloc 50].
Example C22_case : nonneg_requests ex_history /\
  exists s, mrun false ex_history 1500 = Ok (s, [(0, 50); (128, 129); (512, 1)]) /\ length (mblocks s) = 5%nat.
Proof. split; [repeat constructor; lia|]. eexists. split; vm_compute; reflexivity. Qed.
(* alloc<double>(n) computes the byte count in 64 bits but passes it on as int: 2^29 doubles (4 GiB) become
   a request for 0 bytes, and the next region starts 128 bytes later *)
Theorem C22_alloc_refuted : exists sz s s' p q, 8 * 536870912 <= sz /\
  mm_alloc 8 536870912 (mm_init sz) = Ok (p, s) /\ mm_alloc 8 1 s = Ok (q, s') /\ p <= q < p + 8 * 536870912.
Proof. exists 8589934592. do 4 eexists. split; [lia|]. split; [vm_compute; reflexivity|]. split; [vm_compute; reflexivity|]. vm_compute. split; congruence. Qed.
Print Assumptions C22_alloc_refuted.
(* below 2^31-128 bytes alloc<TYPE>(n) is malloc of exactly n*sizeof(TYPE) bytes *)
Theorem C22_alloc_partial : forall sizeof n s, 0 <= n * sizeof <= INT32_MAX -> mm_alloc sizeof n s = mm_malloc (n * sizeof) s.
Proof.
  intros sizeof n s H. unfold mm_alloc, to_int32, INT32_MAX in *. rewrite !Z.mod_small by (rewrite ?Z.mod_small; lia).
  destruct (_ <=? _) eqn:E; [reflexivity|lia].
Qed.
Print Assumptions C22_alloc_partial.

(* C23 *)
(* by the rules of C++ no release is defined at all: the map entry is erased before its iterator is read *)
Theorem C23_strict_refuted : forall p s s', mm_free true p s <> Ok s'.
Proof. intros p s s'. unfold mm_free. destruct (find _ _) as [[]|]; discriminate. Qed.
Print Assumptions C23_strict_refuted.
(* with an implementation that leaves the erased entry readable, releasing the region at the end of the
   arena still dereferences the end iterator *)
Theorem C23_last_block_refuted : exists sz n s p, 0 <= n <= sz /\ mm_malloc n (mm_init sz) = Ok (p, s) /\
  forall strict, mm_free strict p s = UB.
Proof. exists 256, 256. do 2 eexists. split; [lia|]. split; [vm_compute; reflexivity|]. intros []; reflexivity. Qed.
Print Assumptions C23_last_block_refuted.
(* ... and these are the only live regions whose release fails *)
Theorem C23_release_partial : forall h sz s live p n, 0 <= sz -> nonneg_requests h -> mrun false h sz = Ok (s, live) ->
  In (p, n) live ->
  ((exists r, roundup128 n = Ok r /\ p + r < msize s) <-> exists s', mm_free false p s = Ok s').
Proof. intros h sz s live p n Hs Hh E H. eapply free_ok; eauto. eapply mrun_inv; eauto. Qed.
Print Assumptions C23_release_partial.
(* when everything was released any request up to the arena size succeeds, at the start of the arena *)
Theorem C23_whole_arena_partial : forall h sz s n, 128 <= sz <= INT32_MAX -> nonneg_requests h -> mrun false h sz = Ok (s, []) ->
  0 <= n <= sz / 128 * 128 -> exists s', mm_malloc n s = Ok (0, s').
Proof.
  intros h sz s n Hs Hh E Hn. assert (Hs0 : 0 <= sz) by lia. pose proof (mrun_inv _ _ _ _ _ Hs0 Hh E) as I. pose proof (mrun_msize _ _ _ _ _ E) as M.
  assert (1 <= sz / 128) by (apply Z.div_le_lower_bound; lia).
  assert (M' : msize s = sz / 128 * 128) by (rewrite M; unfold mm_init; destruct (_ =? 0) eqn:E0; cbn; lia).
  pose proof (Z.mul_div_le sz 128 ltac:(lia)).
  apply empty_malloc; auto; try lia. exists (sz / 128). exact M'.
Qed.
Print Assumptions C23_whole_arena_partial.
Example C23_case : let h := [Malloc 100; Malloc 300; Malloc 1; Free 128; Malloc 129; Free 0; Free 512; Free 128] in
  nonneg_requests h /\ exists s, mrun false h 1500 = Ok (s, []) /\ msize s = 1408 /\ exists s', mm_malloc 1408 s = Ok (0, s').
Proof. cbv zeta. split; [repeat constructor; lia|]. eexists. split; [vm_compute; reflexivity|]. split; [reflexivity|]. eexists. vm_compute. reflexivity. Qed.
(* a released region is handed out again: right after a release, an equal request succeeds *)
Theorem C23_reuse_partial : forall h sz s live p n s1, 0 <= sz -> nonneg_requests h -> mrun false h sz = Ok (s, live) ->
  In (p, n) live -> mm_free false p s = Ok s1 -> exists q s2, mm_malloc n s1 = Ok (q, s2).
Proof. exact reuse_ok. Qed.
Print Assumptions C23_reuse_partial.
