(* Prop_Gtensor.v -- C105 to C108: stand-alone tensors that own their array.  [plain h t dims] (Spec_Gtensor) says that t is an ordinary tensor of
   shape dims in the heap h; [padded h t adims dims P] that it is an array of shape adims of cells of shape dims, P places apart; [laid h t dims],
   true of both, that its elements lie in different places of its array.  [gel h t ix] is the element of t at ix. *)
From Verif Require Import Base BaseFacts Model_Index Model_View Model_Tensor Model_Gtensor Spec_Index Spec_View Spec_Tensor Spec_Gtensor Checks
  Proofs_Index Proofs_View2 Proofs_Sparse Proofs_Gtensor Proofs_Gtensor2 Proofs_Gtensor3 Proofs_Gtensor4 Proofs_Gtensor5.
From Verif Require Proofs_Tensor.
Local Open Scope Z_scope.

(* the heap before anything is allocated, and one in which a 2 x 3 tensor (0 1 2 / 3 4 5) and a padded array of two cells of shape 3 have been made *)
Definition g_h0 : heap Z := Heap (fun _ _ => None) [] 0.
Definition g_or {A} (d : A) (r : res A) : A := match r with Ok x => x | _ => d end.
Definition g_t0 : gtensor := GT 0 0 [] [] 0 0 None false.
Definition g_new2 : gtensor * heap Z := g_or (g_t0, g_h0) (gnew_by 7 (fun i => i) [2; 3] g_h0).
Definition g_pad : gtensor * heap Z := g_or (g_t0, g_h0) (gnew_array_const 7 0 [2] [3] (snd g_new2)).
Lemma g_h0_ok : heap_ok g_h0.
Proof. split; [constructor|split; [intros b []|split; [cbn; lia|]]]. cbn. easy. Qed.
Lemma g_new2_ok : gnew_by 7 (fun i => i) [2; 3] g_h0 = Ok g_new2 /\ heap_ok (snd g_new2) /\ plain (snd g_new2) (fst g_new2) [2; 3].
Proof.
  destruct (new_by_ok 7 (fun i => i) [2; 3] g_h0 ltac:(easy) ltac:(repeat constructor; lia) g_h0_ok) as (t & h & E & HP & (b & _ & _ & _ & _ & Hok & _) & _).
  unfold g_new2. rewrite E. cbn [g_or fst snd]. auto.
Qed.
Lemma g_pad_str : gstr (fst g_pad) = [32; 1]. Proof. vm_compute. reflexivity. Qed.
Lemma g_pad_ok : heap_ok (snd g_pad) /\ plain (snd g_pad) (fst g_new2) [2; 3] /\ padded (snd g_pad) (fst g_pad) [2] [3] 32.
Proof.
  destruct g_new2_ok as (_ & H1 & H2).
  destruct (new_array_const_ok 7 0 [2] [3] (snd g_new2) ltac:(discriminate) ltac:(discriminate) ltac:(repeat constructor; lia) ltac:(repeat constructor; lia) H1) as (t & h & P & E & HP & HA & _).
  assert (Eg : g_pad = (t, h)) by (unfold g_pad; rewrite E; reflexivity). pose proof g_pad_str as H. rewrite Eg in *. clear Eg E. cbn [fst snd] in *.
  split; [destruct HA as (b & _ & _ & _ & _ & Hok & _); exact Hok|split; [now apply (adds_plain (snd g_new2) t h)|]]. assert (P = 32); [|now subst P]. destruct HP as (_ & _ & _ & _ & _ & _ & _ & Hs & _).
  rewrite H in Hs. change (strides_of P [2] ++ strides_of 1 [3]) with [P; 1] in Hs. injection Hs as Hs. now symmetry.
Qed.

(* ---- C105 ---- *)
Theorem C105_new : forall V (junk c : V) (g : Z -> V) dims h, dims <> [] -> nonneg dims -> heap_ok h ->
  (exists t h', gnew junk dims h = Ok (t, h') /\ plain h' t dims /\ adds_array h t h') /\
  (exists t h', gnew_const junk c dims h = Ok (t, h') /\ plain h' t dims /\ adds_array h t h' /\ forall ix, in_range ix dims -> gel h' t ix = Some c) /\
  (exists t h', gnew_by junk g dims h = Ok (t, h') /\ plain h' t dims /\ adds_array h t h' /\ forall ix, in_range ix dims -> gel h' t ix = Some (g (flat ix dims))).
Proof.
  intros V junk c g dims h Hd Hn Hok. split; [|split; [now apply new_const_ok|now apply new_by_ok]]. destruct (new_plain junk dims h Hd Hn Hok) as (t & h' & b & E & HP & HA & _). now exists t, h'.
Qed.
Print Assumptions C105_new.
Theorem C105_identity : forall V (junk zero one : V) n h, 0 <= n -> heap_ok h -> exists t h', gnew_identity junk zero one [n; n] h = Ok (t, h') /\ plain h' t [n; n] /\ adds_array h t h' /\
  forall i k, 0 <= i < n -> 0 <= k < n -> gel h' t [i; k] = Some (if i =? k then one else zero).
Proof. intros. now apply new_identity_ok. Qed.
Print Assumptions C105_identity.
Theorem C105_from_vector : forall V (junk : V) l h, heap_ok h -> exists t h', gnew_vec junk l h = Ok (t, h') /\ plain h' t [Z.of_nat (length l)] /\ adds_array h t h' /\
  forall i v, nth_error l i = Some v -> gel h' t [Z.of_nat i] = Some v.
Proof. intros. now apply new_vec_ok. Qed.
Print Assumptions C105_from_vector.
(* an array of cells: the cells start at multiples of 32, as close as their size allows *)
Theorem C105_array : forall V (junk c : V) adims dims h, adims <> [] -> dims <> [] -> nonneg adims -> nonneg dims -> heap_ok h ->
  (exists t h' P, gnew_array junk adims dims h = Ok (t, h') /\ padded h' t adims dims P /\ adds_array h t h' /\ (exists q, P = q * 32) /\ prod dims <= P /\ (0 < prod dims -> P < prod dims + 32)) /\
  (exists t h' P, gnew_array_const junk c adims dims h = Ok (t, h') /\ padded h' t adims dims P /\ adds_array h t h' /\ forall ix, in_range ix (adims ++ dims) -> gel h' t ix = Some c).
Proof.
  intros V junk c adims dims h Ha Hd Hna Hn Hok. split; [|now apply new_array_const_ok]. destruct (new_array_ok junk adims dims h Ha Hd Hna Hn Hok) as (t & h' & b & P & E & HP & HA & EP & _). exists t, h', P.
  destruct (roundup_spec (prod dims) 32 ltac:(lia) (prod_nonneg _ Hn)) as (R1 & R2 & R3 & _). rewrite <- EP in R1, R2, R3. auto 8.
Qed.
Print Assumptions C105_array.
(* both kinds have their elements in different places of their array *)
Theorem C105_laid : forall V (h : heap V) t dims, plain h t dims -> laid h t dims.
Proof. intros. now apply plain_laid. Qed.
Print Assumptions C105_laid.
Theorem C105_laid_array : forall V (h : heap V) t adims dims P, padded h t adims dims P -> laid h t (adims ++ dims) /\ forall ia ic, in_range ia adims -> in_range ic dims -> vaddr (gview t) (ia ++ ic) = Ok (match garr t with Some b => b | None => -1 end, P * flat ia adims + flat ic dims).
Proof.
  intros V h t adims dims P HP. pose proof (padded_laid h t adims dims P HP) as HL. split; [exact HL|]. intros ia ic Ha Hc. destruct (laid_len h t _ (ia ++ ic) HL ltac:(now apply Forall2_app)) as (L & _). pose proof HL as (_ & _ & _ & _ & (b & Hb & _) & _).
  rewrite Hb, (vaddr_g t b _ Hb L). now rewrite (padded_dot h t adims dims P ia ic HP Ha Hc).
Qed.
Print Assumptions C105_laid_array.
(* the four ways to give an index all name the same element; reading and writing it *)
Theorem C105_access : forall V (plus : V -> V -> V) (h : heap V) t dims ix v, laid h t dims -> in_range ix dims ->
  (exists w, gel h t ix = Some w /\ gget t ix h = Ok w) /\
  (exists h', gset t ix v h = Ok h' /\ gel h' t ix = Some v /\ only_at h h' t (eq ix) /\ (forall jx, in_range jx dims -> jx <> ix -> gel h' t jx = gel h t jx)) /\
  (exists h' w, gel h t ix = Some w /\ ginc plus t ix v h = Ok h' /\ gel h' t ix = Some (plus w v) /\ only_at h h' t (eq ix) /\ (forall jx, in_range jx dims -> jx <> ix -> gel h' t jx = gel h t jx)) /\
  gget_n t ix h = gget t ix h /\ gset_n t ix v h = gset t ix v h /\ ginc_n plus t ix v h = ginc plus t ix v h /\
  (forall p q, ix = p ++ q -> gget2 t p q h = gget t ix h /\ gset2 t p q v h = gset t ix v h /\ ginc2 plus t p q v h = ginc plus t ix v h /\ gget_arr t p q h = gget t ix h /\ gset_arr t p q v h = gset t ix v h).
Proof.
  intros V plus h t dims ix v HL Hr. split; [now apply (get_ok h t dims)|split; [now apply set_ok|split; [now apply inc_ok|]]].
  unfold gget_n, gset_n, ginc_n, gget, gset, ginc. rewrite (access_n h t dims ix HL Hr). repeat (split; [reflexivity|]). intros p q ->. unfold gget2, gset2, ginc2, gget_arr, gset_arr. rewrite (access2 h t dims p q HL Hr), (access_arr h t dims p q HL Hr). auto.
Qed.
Print Assumptions C105_access.
(* set(v) and zero() *)
Theorem C105_set_all : forall V (h : heap V) t dims v, laid h t dims -> 0 <= gmemsize t -> exists h', gset_all t v h = Ok h' /\ laid h' t dims /\ (forall ix, in_range ix dims -> gel h' t ix = Some v) /\
  forall b a, garr t <> Some b -> hmem h' b a = hmem h b a.
Proof.
  intros V h t dims v HL Hm. pose proof HL as (Hd & _ & _ & _ & Hc & _ & Hi). pose proof Hc as (b & Hb & Hlb & Hcs). destruct (fill_ok h t b (gmemsize t) v Hm Hc Hb) as (h' & E & P). exists h'. split; [exact E|]. pose proof (cells_in h t b 0 _ _ Hc Hb ltac:(lia) (Z.le_refl _)) as Hci. split; [|split].
  - apply (laid_keep h h' t dims b HL Hb); [now rewrite (proj1 P)|]. intro a. now apply (painted_cells b 0 (gmemsize t) (fun _ => v) h h' b a P).
  - intros ix Hr. destruct (laid_len h t dims ix HL Hr) as (L & _). rewrite (gel_eq h' t b ix Hb L). apply (painted_in0 b (gmemsize t) _ h h' _ P). now apply Hi.
  - intros b' a N. apply (painted_block b 0 _ _ h h' b' a P). congruence.
Qed.
Print Assumptions C105_set_all.
(* slices: the last dimensions must be unpadded *)
Theorem C105_slice : forall V (junk : V) (h : heap V) t d1 d2 s1 ix, heap_ok h -> laid h t (d1 ++ d2) -> length s1 = length d1 -> gstr t = s1 ++ strides_of 1 d2 -> in_range ix d1 -> d2 <> [] ->
  exists r h', gslice junk t ix h = Ok (r, h') /\ plain h' r d2 /\ adds_array h r h' /\ forall jx, in_range jx d2 -> gel h' r jx = gel h t (ix ++ jx).
Proof. intros. now apply (slice_ok junk h t d1 d2 s1 ix). Qed.
Print Assumptions C105_slice.
Theorem C105_set_slice : forall V (h : heap V) t d1 d2 s1 ix x, laid h t (d1 ++ d2) -> length s1 = length d1 -> gstr t = s1 ++ strides_of 1 d2 -> in_range ix d1 -> plain h x d2 -> apart t x ->
  exists h', gset_slice t ix x h = Ok h' /\ only_at h h' t (fun jx => exists kx, jx = ix ++ kx /\ in_range kx d2) /\
    (forall jx, in_range jx d2 -> gel h' t (ix ++ jx) = gel h x jx) /\
    (forall iy jx, in_range iy d1 -> in_range jx d2 -> iy <> ix -> gel h' t (iy ++ jx) = gel h t (iy ++ jx)).
Proof.
  intros V h t d1 d2 s1 ix x HL Ls Es Hi HX Hap. destruct (Z_lt_le_dec 0 (prod d2)) as [Hp|Hp].
  - pose proof HX as (_ & Hn & _ & _ & _ & _ & _ & (bx & Hbx & _ & Hcs)). assert (Q : hmem h bx 0 <> None) by (apply Hcs; lia). destruct (hmem h bx 0) as [d|]; [|easy]. now apply (set_slice_ok d h t d1 d2 s1 ix x).
  - (* nothing to copy *) pose proof HX as (_ & Hn & _ & _ & _ & Hxa & _). pose proof (prod_nonneg _ Hn). exists h. split; [|split; [|split]].
    + pose proof (in_range_length _ _ Hi). unfold gset_slice. rewrite off_from0 by (auto; rewrite Es, app_length; lia). cbn [bind]. unfold copy_arr. rewrite Hxa. now replace (prod d2) with 0 by lia.
    + repeat split.
    + intros jx Hj. pose proof (flat_range jx d2 Hj). lia.
    + reflexivity.
Qed.
Print Assumptions C105_set_slice.
(* reshape_view(dims), flat_view() and the view constructor show the same elements in row-major order; nothing is copied *)
Theorem C105_reshape : forall V (h : heap V) x dims dims', plain h x dims -> dims' <> [] -> nonneg dims' ->
  (prod dims' <> prod dims -> greshape_view x dims' = Throw) /\
  (prod dims' = prod dims -> exists v, greshape_view x dims' = Ok v /\ plain h v dims' /\ garr v = garr x /\ gisview v = true /\
     forall ix jx, same_place ix dims jx dims' -> vaddr (gview v) jx = vaddr (gview x) ix /\ forall h' : heap V, gel h' v jx = gel h' x ix).
Proof.
  intros V h x dims dims' HP Hd Hn. split; [|intro; now apply reshape_ok]. intro Np. apply reshape_throws; [exact Hd|]. now destruct HP as (_ & _ & _ & _ & _ & -> & _).
Qed.
Print Assumptions C105_reshape.
Theorem C105_flat : forall V (h : heap V) x dims, plain h x dims -> exists v, gflat_view x = Ok v /\ plain h v [prod dims] /\ gisview v = true /\ forall ix, in_range ix dims -> forall h' : heap V, gel h' v [flat ix dims] = gel h' x ix.
Proof.
  intros V h x dims HP. pose proof HP as (_ & Hn & _ & _ & _ & Ha & _). unfold gflat_view. rewrite Ha. destruct (reshape_ok h x dims [prod dims] HP ltac:(easy)) as (v & E & HPv & _ & Hv & Hg).
  - constructor; [now apply prod_nonneg|constructor].
  - now rewrite prod_one.
  - exists v. split; [exact E|split; [exact HPv|split; [exact Hv|]]]. intros ix Hr h'. pose proof (flat_range ix dims Hr). apply (Hg ix [flat ix dims]). split; [exact Hr|split; [now apply in_range_one|]]. cbn [flat]. change (prod []) with 1. lia.
Qed.
Print Assumptions C105_flat.
(* without dimensions strides[-1] is written; likewise for arrays of cells without dimensions *)
Theorem C105_scalar_refuted : forall V (junk c : V) a adims h, gnew junk [] h = UB /\ gnew_const junk c [] h = UB /\ gnew_array junk (a :: adims) [] h = UB.
Proof. intros. repeat split. Qed.
Print Assumptions C105_scalar_refuted.
(* sequential and random arrays of cells: the elements at places from the number of elements on are left as they were *)
Theorem C105_array_fill_refuted : forall V (junk : V) g adims dims h, adims <> [] -> dims <> [] -> nonneg adims -> nonneg dims -> heap_ok h ->
  exists t h' P, gnew_array_by junk g adims dims h = Ok (t, h') /\ padded h' t adims dims P /\
  forall ia ic, in_range ia adims -> in_range ic dims -> prod (adims ++ dims) <= P * flat ia adims + flat ic dims -> gel h' t (ia ++ ic) = Some junk.
Proof.
  intros V junk g adims dims h Ha Hd Hna Hn Hok. destruct (new_array_by_ok junk g adims dims h Ha Hd Hna Hn Hok) as (t & h' & P & E & HP & _ & _ & Hg). exists t, h', P. split; [exact E|split; [exact HP|]]. intros ia ic Hia Hic Hge. rewrite (Hg ia ic Hia Hic). cbv zeta.
  now destruct (Z.ltb_spec (P * flat ia adims + flat ic dims) (prod (adims ++ dims))); [lia|].
Qed.
Print Assumptions C105_array_fill_refuted.
(* a short index reads beyond its end; a long one is silently cut *)
Theorem C105_index_refuted : forall V (h : heap V) t dims ix rest, laid h t dims ->
  ((length ix < length dims)%nat -> gget t ix h = UB) /\ (length ix = length dims -> gget t (ix ++ rest) h = gget t ix h).
Proof. intros V h t dims ix rest HL. split; intro; [now apply (get_short h t dims)|now apply (get_long h t dims)]. Qed.
Print Assumptions C105_index_refuted.
(* the slice at a full index, which would be a scalar *)
Theorem C105_slice_refuted : forall V (junk : V) (h : heap V) t dims ix, laid h t dims -> length ix = length dims -> gslice junk t ix h = UB.
Proof. intros. now apply (slice_whole_ub junk h t dims). Qed.
Print Assumptions C105_slice_refuted.
(* set_slice does not look at the size of what it copies: the next slice is overwritten *)
Theorem C105_set_slice_refuted : exists (h h' : heap Z) t x, plain h t [2; 3] /\ plain h x [4] /\ apart t x /\ gset_slice t [0] x h = Ok h' /\ gel h' t [1; 0] <> gel h t [1; 0].
Proof.
  destruct g_new2_ok as (_ & H1 & H2). destruct (new_const_ok 7 9 [4] (snd g_new2) ltac:(discriminate) ltac:(repeat constructor; lia) H1) as (x & h & E & HX & HA & _).
  assert (Hc : exists h', gset_slice (fst g_new2) [0] x h = Ok h' /\ gel h' (fst g_new2) [1; 0] <> gel h (fst g_new2) [1; 0]).
  { assert (Q : match gnew_const 7 9 [4] (snd g_new2) with Ok (x, h) => match gset_slice (fst g_new2) [0] x h with Ok h' => (gel h (fst g_new2) [1; 0], gel h' (fst g_new2) [1; 0]) | _ => (None, None) end | _ => (None, None) end = (Some 3, Some 9)) by (vm_compute; reflexivity).
    rewrite E in Q. destruct (gset_slice (fst g_new2) [0] x h) as [h'| |]; try discriminate. exists h'. split; [reflexivity|]. revert Q. generalize (gel h (fst g_new2) [1; 0]) (gel h' (fst g_new2) [1; 0]). intros u w Q. congruence. }
  destruct Hc as (h' & E' & N). exists h, h', (fst g_new2), x. split; [now apply (adds_plain (snd g_new2) x h)|split; [exact HX|split; [|now split]]].
  unfold apart. destruct HA as (b & Hb & _ & Nf & _). rewrite Hb. destruct H2 as (_ & _ & _ & _ & _ & _ & _ & (c & Hcc & Hl & _)). congruence.
Qed.
Print Assumptions C105_set_slice_refuted.
(* a reshaped view of an array of cells shows the padding *)
Theorem C105_reshape_refuted : exists (h : heap Z) t v, padded h t [2] [3] 32 /\ greshape_view t [2; 3] = Ok v /\ gel h v [1; 0] <> gel h t [1; 0].
Proof.
  pose proof g_pad_ok as (_ & _ & H2).
  assert (Q : match gset (fst g_pad) [1; 0] 5 (snd g_pad), greshape_view (fst g_pad) [2; 3] with Ok h', Ok v => gel h' v [1; 0] | _, _ => None end = Some 0) by (vm_compute; reflexivity).
  revert H2 Q. generalize (fst g_pad) as t, (snd g_pad) as h. intros t h H2 Q. pose proof (padded_laid _ _ _ _ _ H2) as HL. destruct (set_ok h t _ [1; 0] 5 HL ltac:(repeat constructor; lia)) as (h' & E & Hv & Ho & _).
  rewrite E in Q. destruct (greshape_view t [2; 3]) as [v| |] eqn:Ev; try discriminate. exists h', t, v. split; [|split; [exact Ev|rewrite Q, Hv; discriminate]].
  pose proof H2 as (P1 & P2 & P3 & P4 & P5 & P6 & P7 & P8 & P9 & P10 & (b & Hb & Hl & Hcs)). repeat (split; [assumption|]). exists b. split; [exact Hb|]. split; [now rewrite (proj1 Ho)|].
  assert (D : dot (gstr t) [1; 0] = 32) by (now rewrite P8). assert (L : length [1; 0] = length (gstr t)) by (now rewrite P8).
  intro a. rewrite <- Hcs. destruct (Z.eq_dec a 32) as [->|N].
  - split; intros _; [apply Hcs; rewrite P10; cbv [prod fold_right]; lia|]. rewrite (gel_eq h' t b _ Hb L), D in Hv. congruence.
  - destruct Ho as (_ & _ & Ho). rewrite Ho; [reflexivity|]. intros ix <-. rewrite (vaddr_g t b _ Hb L), D. congruence.
Qed.
Print Assumptions C105_reshape_refuted.
Example C105_case : heap_ok g_h0 /\ plain (snd g_new2) (fst g_new2) [2; 3] /\ padded (snd g_pad) (fst g_pad) [2] [3] 32 /\ gget (fst g_new2) [1; 1] (snd g_new2) = Ok 4 /\
  (match gslice 7 (fst g_new2) [1] (snd g_new2) with Ok (r, h) => gget r [2] h | _ => UB end) = Ok 5 /\ gget2 (fst g_pad) [1] [2] (snd g_pad) = Ok 0.
Proof. split; [exact g_h0_ok|split; [apply g_new2_ok|split; [apply g_pad_ok|repeat split]]]. Qed.

(* ---- C106 ---- *)
(* the copy constructor: same shape, same elements, a new array *)
Theorem C106_copy : forall V (junk : V) (h : heap V) x dims, heap_ok h -> laid h x dims -> 0 <= gasize x -> gasize x = gmemsize x ->
  exists t h', gcopy junk x h = Ok (t, h') /\ laid h' t dims /\ adds_array h t h' /\ forall ix, in_range ix dims -> gel h' t ix = gel h x ix.
Proof. intros V junk h x dims H1 H2 H3 H4. destruct (copy_ok junk h x dims H1 H2 H3 H4) as (t & h' & E & HL & _ & _ & _ & HA & Hg). now exists t, h'. Qed.
Print Assumptions C106_copy.
(* arrays of cells cannot be copied: the copy's array is too small for what is written to it *)
Theorem C106_copy_refuted : forall V (junk : V) (h : heap V) x dims, heap_ok h -> laid h x dims -> 0 <= gasize x < gmemsize x -> gcopy junk x h = UB.
Proof. intros. now apply (copy_padded_ub junk h x dims). Qed.
Print Assumptions C106_copy_refuted.
Theorem C106_convert : forall V (junk : V) f (h : heap V) x dims, heap_ok h -> plain h x dims -> exists t h', gconvert junk f x h = Ok (t, h') /\ plain h' t dims /\ adds_array h t h' /\ forall ix, in_range ix dims -> gel h' t ix = opt1 f (gel h x ix).
Proof. intros. now apply convert_ok. Qed.
Print Assumptions C106_convert.
(* an array of cells converted to another type has no room for its elements *)
Theorem C106_convert_refuted : forall V (junk : V) f (h : heap V) x dims, heap_ok h -> laid h x dims -> 0 <= gasize x <= gmemsize x -> exists t h', gconvert junk f x h = Ok (t, h') /\
  forall ix, in_range ix dims -> gasize x <= dot (gstr x) ix -> gel h' t ix = None /\ gget t ix h' = UB.
Proof. intros. now apply convert_padded. Qed.
Print Assumptions C106_convert_refuted.
(* any program of declarations, copies, moves, assignments, views, element writes and destructions that keeps to the rules of [allowed]: nothing
   undefined happens, every array is owned by exactly one object, every object with an array can be used; and when all objects are gone so are
   all arrays *)
Theorem C106_program : forall V (junk : V) l (s : gstate), accounted s -> sized s -> legal junk l s ->
  exists s', grun junk l s = Ok s' /\ accounted s' /\ sized s' /\ (gobj s' = [] -> hlive (gheap s') = []).
Proof. intros V junk l s HA Hs HL. destruct (grun_ok junk l s HA Hs HL) as (s' & E & HA' & Hs'). exists s'. split; [exact E|split; [exact HA'|split; [exact Hs'|now apply none_left]]]. Qed.
Print Assumptions C106_program.
Theorem C106_start : forall V, accounted (@start V) /\ sized (@start V).
Proof. intro V. apply start_ok. Qed.
Print Assumptions C106_start.
(* assignment: the target gets the shape and the elements of the source; all other arrays are as before *)
Theorem C106_assign : forall V (junk : V) (s : gstate) i j t x, accounted s -> sized s -> i <> j -> object s i t -> object s j x -> gisview t = false -> unshared s i t -> garr x <> None ->
  exists t' s', gstep junk (GAssign i j) s = Ok s' /\ accounted s' /\ sized s' /\ object s' i t' /\ object s' j x /\ apart t' x /\ gdims t' = gdims x /\
    (forall ix, in_range ix (gdims x) -> gel (gheap s') t' ix = gel (gheap s) x ix) /\
    (forall b a, In b (hlive (gheap s)) -> ~ owns t b -> hmem (gheap s') b a = hmem (gheap s) b a).
Proof.
  intros V junk s i j t x HA Hs N Hi Hj Hv Hu Hx. destruct (assign_step junk s i j t x HA Hs N Hi Hj Hv Hu Hx) as (t' & h' & E & Q1 & Q2 & Ed & Hg & Hf). exists t', (GS (oput i t' (gobj s)) h'). pose proof HA as (_ & H2 & H3 & _ & H5).
  split; [exact E|split; [exact Q1|split; [exact Q2|]]].
  assert (O1 : object (GS (oput i t' (gobj s)) h') i t') by (unfold object; cbn [gobj]; apply oput_in; [exact H2|exact (in_fst _ _ _ Hi)|now left]).
  assert (O2 : object (GS (oput i t' (gobj s)) h') j x) by (unfold object; cbn [gobj]; apply oput_in; [exact H2|exact (in_fst _ _ _ Hi)|right; split; [congruence|exact Hj]]).
  split; [exact O1|split; [exact O2|split; [|split; [exact Ed|split; [exact Hg|exact Hf]]]]].
  cbn [gstep] in E. unfold gassign in E. rewrite (olook_in _ _ _ H2 Hi), (olook_in _ _ _ H2 Hj) in E. cbn [bind] in E. rewrite Hv in E. apply bind_ok in E. destruct E as (h1 & E1 & E). apply bind_ok in E. destruct E as ((b, h2) & E2 & E). apply bind_ok in E. destruct E as (x' & _ & E). apply bind_ok in E. destruct E as (h3 & _ & E).
  assert (Et : olook (oput i t' (gobj s)) i = olook (oput i (GT (gk x) (gak x) (gdims x) (gstr x) (gasize x) (gmemsize x) (Some b) false) (gobj s)) i) by congruence.
  rewrite (olook_in (oput i t' (gobj s)) i t') in Et by (try exact O1; now rewrite oput_names).
  rewrite (olook_in _ i (GT (gk x) (gak x) (gdims x) (gstr x) (gasize x) (gmemsize x) (Some b) false)) in Et; [|rewrite oput_names; exact H2|apply oput_in; [exact H2|exact (in_fst _ _ _ Hi)|now left]]. injection Et as ->.
  unfold apart. cbn [garr]. unfold new_arr in E2. destruct (gmemsize x <? 0); [discriminate|]. injection E2 as <- _. destruct (garr x) as [c|] eqn:Ec; [|easy]. intro Q. injection Q as Q.
  destruct (release s i t HA Hs Hi Hu) as (h1' & E1' & El & _ & HA1 & _). rewrite Hv in E1'. assert (h1' = h1) by congruence. subst h1'. assert (Hl : In c (hlive h1)).
  { apply El. split; [exact (H5 j x c Hj Ec)|]. intro Ho. apply N. symmetry. exact (Hu c j x Ho Hj Ec). }
  destruct HA1 as ((_ & B & _) & _). apply B in Hl. cbn [gheap] in Hl. lia.
Qed.
Print Assumptions C106_assign.
(* moving: the new object is the old one, which keeps no array; moving onto an object frees the array it owned *)
Theorem C106_move : forall V (junk : V) (s s' : gstate) i j x, accounted s -> object s j x -> i <> j -> gstep junk (GMove i j) s = Ok s' -> ~ In i (names s) ->
  object s' i x /\ object s' j (with_arr x None) /\ gheap s' = gheap s /\ forall k u, k <> i -> k <> j -> (object s' k u <-> object s k u).
Proof.
  intros V junk s s' i j x (_ & H2 & _) Hj N E Hi. cbn [gstep] in E. unfold gmove in E. rewrite (olook_in _ _ _ H2 Hj) in E. cbn [bind] in E. injection E as <-. unfold object. cbn [gobj gheap In].
  pose proof (fun k u => oput_in j (with_arr x None) (gobj s) k u H2 (in_fst _ _ _ Hj)) as HO. split; [now left|split; [right; apply HO; now left|split; [reflexivity|]]]. intros k u Nk Nk'. rewrite HO. split; [intros [Q|[Q|Q]]; [congruence|tauto|tauto]|tauto].
Qed.
Print Assumptions C106_move.
Theorem C106_move_assign : forall V (junk : V) (s : gstate) i j t x, accounted s -> sized s -> i <> j -> object s i t -> object s j x -> unshared s i t ->
  exists s', gstep junk (GMoveAssign i j) s = Ok s' /\ object s' i x /\ object s' j (with_arr x None) /\ (forall k u, k <> i -> k <> j -> (object s' k u <-> object s k u)) /\
    (forall b, In b (hlive (gheap s')) <-> In b (hlive (gheap s)) /\ ~ owns t b) /\ (forall b a, ~ owns t b -> hmem (gheap s') b a = hmem (gheap s) b a).
Proof.
  intros V junk s i j t x HA Hs N Hi Hj Hu. pose proof HA as (_ & H2 & _). destruct (release s i t HA Hs Hi Hu) as (h1 & E1 & El1 & Eo1 & _). cbn [gstep]. unfold gmove_assign.
  rewrite (olook_in _ _ _ H2 Hi), (olook_in _ _ _ H2 Hj). cbn [bind]. rewrite E1. cbn [bind]. replace (GT (gk x) (gak x) (gdims x) (gstr x) (gasize x) (gmemsize x) (garr x) (gisview x)) with x by (now destruct x). pose proof (in_fst _ _ _ Hi) as Ii. pose proof (in_fst _ _ _ Hj) as Ij.
  rewrite (olook_in (oput i x (gobj s)) j x); [|now rewrite oput_names|apply oput_in; [exact H2|exact Ii|right; split; [congruence|exact Hj]]]. cbn [bind]. eexists. split; [reflexivity|]. unfold object. cbn [gobj gheap].
  assert (HO : forall k u, In (k, u) (oput j (with_arr x None) (oput i x (gobj s))) <-> (k = j /\ u = with_arr x None) \/ (k = i /\ u = x) \/ (k <> i /\ k <> j /\ In (k, u) (gobj s))).
  { intros k u. rewrite oput_in by (rewrite oput_names; assumption). rewrite oput_in by assumption. split; [intros [Q|(Q & [Q'|Q'])]; tauto|intros [Q|[(-> & ->)|Q]]; [tauto|right; split; [exact N|now left]|tauto]]. }
  split; [apply HO; tauto|split; [apply HO; tauto|split; [|split; [exact El1|exact Eo1]]]]. intros k u Nk Nk'. rewrite HO. tauto.
Qed.
Print Assumptions C106_move_assign.
(* destruction frees the array of an object that owns one, and nothing else *)
Theorem C106_destroy : forall V (junk : V) (s : gstate) i t, accounted s -> sized s -> object s i t -> unshared s i t ->
  exists s', gstep junk (GDestroy i) s = Ok s' /\ (forall k u, object s' k u <-> k <> i /\ object s k u) /\
    (forall b, In b (hlive (gheap s')) <-> In b (hlive (gheap s)) /\ ~ owns t b) /\ (forall b a, ~ owns t b -> hmem (gheap s') b a = hmem (gheap s) b a).
Proof.
  intros V junk s i t HA Hs Hi Hu. pose proof HA as (_ & H2 & _). destruct (release s i t HA Hs Hi Hu) as (h1 & E1 & El1 & Eo1 & _). cbn [gstep]. unfold gdestroy. rewrite (olook_in _ _ _ H2 Hi). cbn [bind]. rewrite E1. cbn [bind].
  eexists. split; [reflexivity|]. unfold object. cbn [gobj gheap]. split; [intros; apply odrop_in|now split].
Qed.
Print Assumptions C106_destroy.
(* objects that are not views do not share arrays, so writing to one leaves the others alone *)
Theorem C106_independent : forall V (junk : V) (s s' : gstate) i j t u ix v jx, accounted s -> sized s -> object s i t -> object s j u -> i <> j -> gisview t = false -> gisview u = false ->
  gstep junk (GSet i ix v) s = Ok s' -> gel (gheap s') u jx = gel (gheap s) u jx /\ gobj s' = gobj s.
Proof.
  intros V junk s s' i j t u ix v jx HA Hs Hi Hj N Ht Hu E. apply (set_apart junk s s' i j t u ix v jx HA Hs Hi Hj); [|exact E]. apply (owners_apart s i j t u HA Hi Hj N Ht Hu). intro Q. cbn [gstep] in E. pose proof HA as (_ & H2 & _).
  rewrite (olook_in _ _ _ H2 Hi) in E. cbn [bind] in E. unfold gset, wr in E. destruct (goff t ix); cbn [bind] in E; try discriminate. rewrite Q in E. discriminate.
Qed.
Print Assumptions C106_independent.
(* x=x throws the elements away *)
Theorem C106_self_assign_refuted : forall V (junk : V) (s : gstate) i t, accounted s -> sized s -> object s i t -> gisview t = false -> unshared s i t -> garr t <> None ->
  exists t' h', gstep junk (GAssign i i) s = Ok (GS (oput i t' (gobj s)) h') /\ gdims t' = gdims t /\ forall ix, in_range ix (gdims t) -> gel h' t' ix = Some junk.
Proof. intros. now apply self_assign. Qed.
Print Assumptions C106_self_assign_refuted.
(* x=std::move(x) leaves x without an array *)
Theorem C106_self_move_refuted : forall V (junk : V) (s : gstate) i t, accounted s -> sized s -> object s i t -> unshared s i t ->
  exists t' h', gstep junk (GMoveAssign i i) s = Ok (GS (oput i t' (gobj s)) h') /\ garr t' = None.
Proof. intros V junk s i t HA Hs Hi Hu. now apply (self_move junk s i t). Qed.
Print Assumptions C106_self_move_refuted.
(* assigning to a view allocates an array that nobody owns *)
Theorem C106_view_assign_refuted : forall V (junk : V) (s : gstate) i j t x, accounted s -> sized s -> i <> j -> object s i t -> object s j x -> gisview t = true -> garr x <> None ->
  exists s' b, gstep junk (GAssign i j) s = Ok s' /\ In b (hlive (gheap s')) /\ forall k u, object s' k u -> ~ owns u b.
Proof. intros V junk s i j t x HA Hs N Hi Hj Hv Hx. now apply (view_assign_leaks junk s i j t x). Qed.
Print Assumptions C106_view_assign_refuted.
(* a program that creates, fills, copies, moves, assigns, views and destroys *)
Definition g_prog : list (@gop Z) := [GNew 0 [2; 3]; GSet 0 [1; 2] 5; GCopy 1 0; GNew 2 [4]; GAssign 2 1; GView 3 2 [6]; GSet 3 [5] 8; GMove 4 0; GDestroy 3; GMoveAssign 1 2; GDestroy 0; GDestroy 1; GDestroy 2; GDestroy 4].
Definition g_fresh (s : @gstate Z) i := negb (existsb (Z.eqb i) (names s)).
Definition g_unshared (s : @gstate Z) i t := match garr t with Some b => gisview t || forallb (fun p => (fst p =? i) || match garr (snd p) with Some c => negb (c =? b) | None => true end) (gobj s) | None => true end.
Definition g_has t := match garr t with Some _ => true | None => false end.
Fixpoint g_range (ix dims : list Z) := match ix, dims with [], [] => true | i :: ix', d :: dims' => (0 <=? i) && (i <? d) && g_range ix' dims' | _, _ => false end.
Definition g_shape (dims : list Z) := negb (match dims with [] => true | _ => false end) && forallb (Z.leb 0) dims.
Definition g_allowed (s : @gstate Z) (o : @gop Z) : bool :=
  match o with
  | GNew i dims => g_fresh s i && g_shape dims
  | GNewArray i adims dims => g_fresh s i && g_shape adims && g_shape dims
  | GCopy i j => g_fresh s i && match olook (gobj s) j with Ok x => g_has x && (gasize x =? gmemsize x) | _ => false end
  | GMove i j => g_fresh s i && negb (g_fresh s j)
  | GAssign i j => negb (i =? j) && match olook (gobj s) i, olook (gobj s) j with Ok t, Ok x => negb (gisview t) && g_unshared s i t && g_has x | _, _ => false end
  | GMoveAssign i j => negb (i =? j) && negb (g_fresh s j) && match olook (gobj s) i with Ok t => g_unshared s i t | _ => false end
  | GView i j dims => g_fresh s i && g_shape dims && match olook (gobj s) j with Ok x => g_has x && (prod dims =? gasize x) | _ => false end
  | GSet i ix v => match olook (gobj s) i with Ok t => g_has t && g_range ix (gdims t) | _ => false end
  | GDestroy i => match olook (gobj s) i with Ok t => g_unshared s i t | _ => false end
  end.
Fixpoint g_legal (l : list (@gop Z)) (s : @gstate Z) : bool :=
  match l with [] => true | o :: l' => g_allowed s o && match gstep 7 o s with Ok s' => g_legal l' s' | _ => true end end.
Lemma g_fresh_ok s i : g_fresh s i = true <-> ~ In i (names s).
Proof. unfold g_fresh. rewrite negb_true_iff, <- not_true_iff_false, existsb_exists. split; intros H Q; apply H; [exists i; split; [exact Q|apply Z.eqb_refl]|]. destruct Q as (x & Q & E). apply Z.eqb_eq in E. now subst. Qed.
Lemma g_used_ok s i : negb (g_fresh s i) = true -> In i (names s).
Proof. intro H. apply negb_true_iff in H. unfold g_fresh in H. apply negb_false_iff, existsb_exists in H. destruct H as (x & Q & E). apply Z.eqb_eq in E. now subst. Qed.
Lemma g_look_ok o i t : olook o i = Ok t -> In (i, t) o.
Proof. induction o as [|(j, u) o IH]; intro H; [discriminate|]. cbn [olook] in H. destruct (Z.eqb_spec j i); [left; congruence|right; auto]. Qed.
Lemma g_shape_ok dims : g_shape dims = true -> dims <> [] /\ nonneg dims.
Proof. unfold g_shape. intro H. apply andb_prop in H. destruct H as (H1 & H2). split; [now destruct dims|]. apply Forall_forall. intros x Hx. rewrite forallb_forall in H2. specialize (H2 x Hx). lia. Qed.
Lemma g_range_ok ix dims : g_range ix dims = true -> in_range ix dims.
Proof. revert dims. induction ix as [|i ix IH]; intros [|d dims] H; try discriminate; [constructor|]. cbn in H. apply andb_prop in H. destruct H as (H & H'). constructor; [lia|now apply IH]. Qed.
Lemma g_unshared_ok s i t : g_unshared s i t = true -> unshared s i t.
Proof.
  unfold g_unshared, unshared. intros H b j u (Hb & Hv) Hj Hu. rewrite Hb, Hv in H. cbn in H. rewrite forallb_forall in H. specialize (H (j, u) Hj). cbn in H. rewrite Hu, Z.eqb_refl in H. cbn in H. rewrite orb_false_r in H. now apply Z.eqb_eq.
Qed.
Lemma g_has_ok t : g_has t = true -> garr t <> None. Proof. unfold g_has. now destruct (garr t). Qed.
Lemma g_allowed_ok s o : g_allowed s o = true -> allowed s o.
Proof.
  destruct o; cbn [g_allowed allowed]; intro H;
    repeat match goal with
    | H : (_ && _)%bool = true |- _ => apply andb_prop in H; destruct H
    | H : match olook ?o ?i with Ok _ => _ | _ => _ end = true |- _ => destruct (olook o i) eqn:?; try discriminate
    | H : g_fresh _ _ = true |- _ => apply g_fresh_ok in H
    | H : negb (g_fresh _ _) = true |- _ => apply g_used_ok in H
    | H : g_shape _ = true |- _ => apply g_shape_ok in H; destruct H
    | H : g_unshared _ _ _ = true |- _ => apply g_unshared_ok in H
    | H : g_has _ = true |- _ => apply g_has_ok in H
    | H : g_range _ _ = true |- _ => apply g_range_ok in H
    | H : olook _ _ = Ok _ |- _ => apply g_look_ok in H
    | H : (_ =? _) = true |- _ => apply Z.eqb_eq in H
    | H : negb (_ =? _) = true |- _ => apply negb_true_iff, Z.eqb_neq in H
    | H : negb (gisview _) = true |- _ => apply negb_true_iff in H
    end; unfold object; eauto 12.
Qed.
Lemma g_legal_ok l : forall s, g_legal l s = true -> legal 7 l s.
Proof. induction l as [|o l IH]; intros s H; cbn [g_legal legal] in *; [exact I|]. apply andb_prop in H. destruct H as (H1 & H2). split; [now apply g_allowed_ok|]. intros s' E. rewrite E in H2. now apply IH. Qed.
Example C106_case : legal 7 g_prog start /\ match grun 7 g_prog start with Ok s => hlive (gheap s) = [] /\ gobj s = [] | _ => False end.
Proof. split; [apply g_legal_ok; vm_compute; reflexivity|vm_compute; auto]. Qed.

(* ---- C107 ---- *)
(* element by element, in row-major order, into a new tensor of the shape of the first operand.  Only the numbers of elements are compared, except
   by odot and odotc which want equal shapes. *)
Theorem C107_binary : forall (R : cring) (conj : R -> R) (junk : R) (h : heap (car R)) t x dims dims', heap_ok h -> plain h t dims -> plain h x dims' -> prod dims = prod dims' ->
  let gives f op := exists r h', op t x h = Ok (r, h') /\ plain h' r dims /\ adds_array h r h' /\ forall ix jx, same_place ix dims jx dims' -> gel h' r ix = opt2 f (gel h t ix) (gel h x jx) in
  gives cadd (gplus junk) /\ gives csub (gminus junk) /\ gives cmul (gelem_times junk) /\
  (dims = dims' -> gives cmul (godot junk) /\ gives (fun v w => cmul v (conj w)) (godotc conj junk)) /\
  (dims <> dims' -> godot junk t x h = Throw /\ godotc conj junk t x h = Throw).
Proof.
  intros R conj junk h t x dims dims' Hok HT HX Hp gives. pose proof HT as (_ & _ & Hd & _ & _ & Ha & _). pose proof HX as (_ & _ & Hd' & _ & _ & Ha' & _).
  assert (G : forall f, gives f (gmap2 junk f)) by (intro f; now apply (map2_ok junk f h t x dims dims')).
  unfold gives, gplus, gminus, gelem_times, godot, godotc in *. rewrite Ha, Ha', Hp, Hd, Hd', Z.eqb_refl. cbn [assrt]. split; [exact (G cadd)|split; [exact (G csub)|split; [exact (G cmul)|split]]].
  - intro E. rewrite (proj2 (Proofs_Tensor.eqlb_eq dims dims') E). cbn [assrt]. split; [exact (G cmul)|exact (G (fun v w => cmul v (conj w)))].
  - intro N. destruct (eqlb dims dims') eqn:E; [apply Proofs_Tensor.eqlb_eq in E; contradiction|]. split; reflexivity.
Qed.
Print Assumptions C107_binary.
Theorem C107_unary : forall (R : cring) (conj : R -> R) (junk c : R) (h : heap (car R)) t dims, heap_ok h -> plain h t dims ->
  (exists r h', gtimes junk c t h = Ok (r, h') /\ plain h' r dims /\ adds_array h r h' /\ forall ix, in_range ix dims -> gel h' r ix = opt1 (cmul c) (gel h t ix)) /\
  (exists r h', gconj conj junk t h = Ok (r, h') /\ plain h' r dims /\ adds_array h r h' /\ forall ix, in_range ix dims -> gel h' r ix = opt1 conj (gel h t ix)).
Proof. intros. split; now apply map_ok. Qed.
Print Assumptions C107_unary.
(* in place: x, and y, may be the tensor itself or views of it *)
Theorem C107_in_place : forall (R : cring) (conj : R -> R) (c : R) (h : heap (car R)) t x y dims dims' dims'', plain h t dims -> plain h x dims' -> plain h y dims'' -> prod dims = prod dims' -> prod dims = prod dims'' ->
  let does f op := exists h', op = Ok h' /\ only_at h h' t (fun ix => in_range ix dims) /\ forall ix jx, same_place ix dims jx dims' -> gel h' t ix = opt2 f (gel h t ix) (gel h x jx) in
  let does3 f op := exists h', op = Ok h' /\ only_at h h' t (fun ix => in_range ix dims) /\ forall ix jx kx, same_place ix dims jx dims' -> same_place ix dims kx dims'' -> gel h' t ix = opt3 f (gel h t ix) (gel h x jx) (gel h y kx) in
  does cadd (gadd_in t x h) /\ does csub (gsub_in t x h) /\ does cmul (gmul_in t x h) /\
  does (fun v w => cadd v (cmul w c)) (gadd_c t x c h) /\ does (fun v w => cadd v (conj w)) (gaddc conj t x h) /\ does (fun v w => cadd v (cmul (conj w) c)) (gaddc_c conj t x c h) /\
  does (fun v w => csub v (cmul w c)) (gsub_c t x c h) /\ does (fun v w => csub v (cmul (conj w) c)) (gsubc_c conj t x c h) /\
  does3 (fun v w u => cadd v (cmul w u)) (gadd_odot t x y h) /\ does3 (fun v w u => cadd v (cmul w (conj u))) (gadd_odotc conj t x y h) /\
  (exists h', gscale_in t c h = Ok h' /\ only_at h h' t (fun ix => in_range ix dims) /\ forall ix, in_range ix dims -> gel h' t ix = opt1 (fun v => cmul v c) (gel h t ix)).
Proof.
  intros R conj c h t x y dims dims' dims'' HT HX HY Hp Hq does does3. pose proof HT as (_ & _ & _ & _ & _ & Ha & _). pose proof HX as (_ & _ & _ & _ & _ & Ha' & _). pose proof HY as (_ & _ & _ & _ & _ & Ha'' & _).
  unfold gadd_in, gsub_in, gmul_in, gadd_c, gaddc, gaddc_c, gsub_c, gsubc_c, gadd_odot, gadd_odotc, gscale_in. rewrite Ha, Ha', Ha'', <- Hp, <- Hq, !Z.eqb_refl. cbn [assrt].
  assert (G : forall f, does f (gupd2 f t x h)) by (intro f; now apply (upd2_ok c0 f h t x dims dims')). assert (G3 : forall f, does3 f (gupd3 f t x y h)) by (intro f; now apply (upd3_ok c0 f h t x y dims dims' dims'')).
  split; [exact (G cadd)|]. split; [exact (G csub)|]. split; [exact (G cmul)|]. split; [exact (G (fun v w => cadd v (cmul w c)))|]. split; [exact (G (fun v w => cadd v (conj w)))|]. split; [exact (G (fun v w => cadd v (cmul (conj w) c)))|].
  split; [exact (G (fun v w => csub v (cmul w c)))|]. split; [exact (G (fun v w => csub v (cmul (conj w) c)))|]. split; [exact (G3 (fun v w u => cadd v (cmul w u)))|]. split; [exact (G3 (fun v w u => cadd v (cmul w (conj u))))|]. now apply (upd_ok c0).
Qed.
Print Assumptions C107_in_place.
(* operands with different numbers of elements are refused *)
Theorem C107_sizes : forall (R : cring) (conj : R -> R) (junk c : R) (h : heap (car R)) t x, gasize t <> gasize x ->
  gplus junk t x h = Throw /\ gminus junk t x h = Throw /\ gelem_times junk t x h = Throw /\ gadd_in t x h = Throw /\ gsub_in t x h = Throw /\ gmul_in t x h = Throw /\ gadd_c t x c h = Throw /\ gaddc conj t x h = Throw /\
  gaddc_c conj t x c h = Throw /\ gsub_c t x c h = Throw /\ gsubc_c conj t x c h = Throw /\ ginp t x h = Throw /\ ginpc conj t x h = Throw /\ (forall y, gadd_odot t x y h = Throw /\ gadd_odotc conj t x y h = Throw /\ gadd_odot t y x h = Throw /\ gadd_odotc conj t y x h = Throw).
Proof.
  intros R conj junk c h t x N. unfold gplus, gminus, gelem_times, gadd_in, gsub_in, gmul_in, gadd_c, gaddc, gaddc_c, gsub_c, gsubc_c, ginp, ginpc, gadd_odot, gadd_odotc.
  rewrite (proj2 (Z.eqb_neq (gasize t) (gasize x)) N). rewrite Z.eqb_sym, (proj2 (Z.eqb_neq (gasize t) (gasize x)) N). cbn [assrt]. repeat split; destruct (_ =? _); reflexivity.
Qed.
Print Assumptions C107_sizes.
(* sums over all elements *)
Theorem C107_sums : forall (R : cring) (conj : R -> R) (h : heap (car R)) t x dims, plain h t dims -> plain h x dims ->
  gnorm2 t h = Ok (rsum (map (fun ix => cmul (gel0 h t ix) (gel0 h t ix)) (all_indices dims))) /\
  ginp t x h = Ok (rsum (map (fun ix => cmul (gel0 h t ix) (gel0 h x ix)) (all_indices dims))) /\
  ginpc conj t x h = Ok (rsum (map (fun ix => cmul (gel0 h t ix) (conj (gel0 h x ix))) (all_indices dims))) /\
  gdiff2 t x h = Ok (rsum (map (fun ix => cmul (csub (gel0 h t ix) (gel0 h x ix)) (csub (gel0 h t ix) (gel0 h x ix))) (all_indices dims))).
Proof.
  intros R conj h t x dims HT HX. pose proof HT as (_ & _ & Hd & _ & _ & Ha & _). pose proof HX as (_ & _ & Hd' & _ & _ & Ha' & _). unfold gnorm2, ginp, ginpc, gdiff2. rewrite Ha, Ha', Hd, Hd', Z.eqb_refl, (proj2 (Proofs_Tensor.eqlb_eq dims dims) eq_refl). cbn [assrt].
  split; [now apply (sum2_ok cmul h)|split; [now apply (sum2_ok cmul h)|split; [now apply (sum2_ok (fun v w => cmul v (conj w)) h)|now apply (sum2_ok (fun v w => cmul (csub v w) (csub v w)) h)]]].
Qed.
Print Assumptions C107_sums.
(* == *)
Theorem C107_equal : forall V eqv (h : heap V) t x dims dims', (forall v w, eqv v w = true <-> v = w) -> plain h t dims -> plain h x dims' ->
  exists r, geq eqv t x h = Ok r /\ (r = true <-> prod dims = prod dims' /\ forall ix jx, same_place ix dims jx dims' -> gel h t ix = gel h x jx).
Proof.
  intros V eqv h t x dims dims' He HT HX. destruct (Z_lt_le_dec 0 (prod dims)) as [Hp|Hp].
  - pose proof HT as (_ & _ & _ & _ & _ & _ & _ & (b & _ & _ & Hcs)). assert (Q : hmem h b 0 <> None) by (apply Hcs; lia). destruct (hmem h b 0) as [d|]; [|easy]. now apply (eq_ok d).
  - pose proof HT as (_ & Hn & _ & _ & _ & Ha & _). pose proof HX as (_ & Hn' & _ & _ & _ & Ha' & _). pose proof (prod_nonneg _ Hn). unfold geq. rewrite Ha, Ha'. destruct (Z.eqb_spec (prod dims') (prod dims)) as [E|N].
    + exists true. split; [now replace (prod dims) with 0 by lia|]. split; [intros _; split; [congruence|]|reflexivity]. intros ix jx (Hi & _). pose proof (flat_range ix dims Hi). lia.
    + exists false. split; [reflexivity|]. split; [discriminate|]. intros (Q & _). congruence.
Qed.
Print Assumptions C107_equal.
(* so tensors of different shapes can be equal *)
Theorem C107_equal_refuted : exists (h : heap Z) t x, plain h t [2; 3] /\ plain h x [3; 2] /\ geq Z.eqb t x h = Ok true.
Proof.
  destruct g_new2_ok as (_ & H1 & H2). destruct (new_by_ok 7 (fun i => i) [3; 2] (snd g_new2) ltac:(discriminate) ltac:(repeat constructor; lia) H1) as (x & h & E & HX & HA & _). exists h, (fst g_new2), x. split; [now apply (adds_plain (snd g_new2) x h)|split; [exact HX|]].
  assert (Q : match gnew_by 7 (fun i => i) [3; 2] (snd g_new2) with Ok (x, h) => geq Z.eqb (fst g_new2) x h | _ => UB end = Ok true) by (vm_compute; reflexivity). now rewrite E in Q.
Qed.
Print Assumptions C107_equal_refuted.
(* arrays of cells: what lies at places from the number of elements on is neither changed ... *)
Theorem C107_array_refuted : forall (R : cring) (h h' : heap (car R)) t x dims ix, laid h t dims -> in_range ix dims -> gasize t <= dot (gstr t) ix -> gadd_in t x h = Ok h' -> gel h' t ix = gel h t ix.
Proof.
  intros R h h' t x dims ix HL Hr Hge E. destruct (laid_len h t dims ix HL Hr) as (L & _). pose proof HL as (_ & _ & _ & _ & (b & Hb & _) & _ & Hi). unfold gadd_in, assrt in E. destruct (gasize t =? gasize x); [|discriminate].
  rewrite !(gel_eq _ t b ix Hb L). apply (upd2_beyond cadd h t x h' b _ Hb E Hge). now apply Hi.
Qed.
Print Assumptions C107_array_refuted.
(* ... nor compared *)
Theorem C107_array_equal_refuted : exists (h : heap Z) t x, laid h t [2; 3] /\ laid h x [2; 3] /\ gel h t [1; 0] <> gel h x [1; 0] /\ geq Z.eqb t x h = Ok true.
Proof.
  pose proof g_pad_ok as (Hok & _ & HP). destruct (new_array_const_ok 7 0 [2] [3] (snd g_pad) ltac:(discriminate) ltac:(discriminate) ltac:(repeat constructor; lia) ltac:(repeat constructor; lia) Hok) as (x & h & P & E & HX & HA & Hx0).
  assert (Q : match gnew_array_const 7 0 [2] [3] (snd g_pad) with Ok (x, h) => match gset (fst g_pad) [1; 0] 5 h with Ok h' => geq Z.eqb (fst g_pad) x h' | _ => UB end | _ => UB end = Ok true) by (vm_compute; reflexivity). rewrite E in Q. clear E.
  revert HP HA Q. clear Hok. generalize (fst g_pad) as t, (snd g_pad) as h0. intros t h0 HP HA Q. pose proof (padded_laid _ _ _ _ _ HP) as HL0. pose proof (padded_laid _ _ _ _ _ HX) as HLx.
  assert (HL : laid h t [2; 3]) by (apply (adds_laid (R := ZRing) h0 x h t [2; 3] HA HL0)). destruct (set_ok h t [2; 3] [1; 0] 5 HL ltac:(repeat constructor; lia)) as (h' & E' & Hv & Ho & _). rewrite E' in Q. exists h', t, x.
  pose proof HL as (_ & _ & _ & _ & (b & Hb & Hlb & Hcs) & _). pose proof HLx as (_ & _ & _ & _ & (c & Hc & Hlc & Hcs') & _).
  assert (Nbc : b <> c). { destruct HA as (c' & Hc' & _ & Nf & _). assert (c' = c) by congruence. subst c'. intros ->. apply Nf. destruct HL0 as (_ & _ & _ & _ & (b' & Hb' & Hl' & _) & _). congruence. }
  assert (Ec : forall a, hmem h' b a <> None <-> hmem h b a <> None).
  { intro a. destruct Ho as (_ & _ & Ho). destruct (laid_len h t [2; 3] [1; 0] HL ltac:(repeat constructor; lia)) as (L & _). destruct (Z.eq_dec a (dot (gstr t) [1; 0])) as [->|N].
    - rewrite (gel_eq h' t b _ Hb L) in Hv. split; intros _; [|congruence]. apply Hcs. apply HL. repeat constructor; lia.
    - rewrite Ho; [reflexivity|]. intros ix <-. rewrite (vaddr_g t b _ Hb L). congruence. }
  assert (Eo : forall a, hmem h' c a = hmem h c a).
  { intro a. destruct Ho as (_ & _ & Ho). apply Ho. intros ix <-. destruct (laid_len h t [2; 3] [1; 0] HL ltac:(repeat constructor; lia)) as (L & _). rewrite (vaddr_g t b _ Hb L). congruence. }
  split; [apply (laid_keep h h' t [2; 3] b HL Hb); [now rewrite (proj1 Ho)|exact Ec]|]. split; [apply (laid_keep h h' x [2; 3] c HLx Hc); [now rewrite (proj1 Ho)|intro a; now rewrite Eo]|]. split; [|exact Q].
  destruct (laid_len h x [2; 3] [1; 0] HLx ltac:(repeat constructor; lia)) as (Lx & _). rewrite Hv, (gel_eq h' x c _ Hc Lx), Eo, <- (gel_eq h x c _ Hc Lx). rewrite (Hx0 [1; 0]) by (repeat constructor; lia). discriminate.
Qed.
Print Assumptions C107_array_equal_refuted.
Example C107_case : let (t, h) := g_new2 in heap_ok h /\ plain h t [2; 3] /\ ginp (R := ZRing) t t h = Ok 55 /\ geq Z.eqb t t h = Ok true /\
  match gplus (R := ZRing) 7 t t h with Ok (r, h') => gget r [1; 2] h' | _ => UB end = Ok 10.
Proof. pose proof g_new2_ok as (_ & H1 & H2). rewrite (surjective_pairing g_new2). split; [exact H1|split; [exact H2|]]. repeat split; vm_compute; reflexivity. Qed.

(* ---- C108 ---- *)
(* A*B, A*v and transpose(A)*B of matrices and vectors, padded or not *)
Theorem C108_matmul : forall (R : cring) (junk : R) (h : heap (car R)) t x n k m, heap_ok h -> laid h t [n; k] -> laid h x [k; m] -> exists r h', gmatmul junk t x h = Ok (r, h') /\ plain h' r [n; m] /\ adds_array h r h' /\
  forall i j, 0 <= i < n -> 0 <= j < m -> gel h' r [i; j] = Some (rsum (map (fun p => cmul (gel0 h t [i; p]) (gel0 h x [p; j])) (zrange k))).
Proof. intros. now apply matmul_ok. Qed.
Print Assumptions C108_matmul.
Theorem C108_matvec : forall (R : cring) (junk : R) (h : heap (car R)) t x n k, heap_ok h -> laid h t [n; k] -> laid h x [k] -> exists r h', gmatmul junk t x h = Ok (r, h') /\ plain h' r [n] /\ adds_array h r h' /\
  forall i, 0 <= i < n -> gel h' r [i] = Some (rsum (map (fun p => cmul (gel0 h t [i; p]) (gel0 h x [p])) (zrange k))).
Proof. intros. now apply matvec_ok. Qed.
Print Assumptions C108_matvec.
Theorem C108_matmul_TA : forall (R : cring) (junk : R) (h : heap (car R)) t x n k m, heap_ok h -> laid h t [k; n] -> laid h x [k; m] -> exists r h', gmatmul_TA junk t x h = Ok (r, h') /\ plain h' r [n; m] /\ adds_array h r h' /\
  forall i j, 0 <= i < n -> 0 <= j < m -> gel h' r [i; j] = Some (rsum (map (fun p => cmul (gel0 h t [p; i]) (gel0 h x [p; j])) (zrange k))).
Proof. intros. now apply matmul_TA_ok. Qed.
Print Assumptions C108_matmul_TA.
(* add_matmul(x,y): the contraction of the last dimension of x with the first of y; x must have rank two or more *)
Theorem C108_add_matmul : forall (R : cring) (h : heap (car R)) t x y dx dy K, dx <> [] -> 0 < K -> plain h x (dx ++ [K]) -> plain h y (K :: dy) -> plain h t (dx ++ dy) -> apart t x -> apart t y ->
  exists h', gadd_matmul t x y h = Ok h' /\ only_at h h' t (fun ix => in_range ix (dx ++ dy)) /\
    forall ix jx, in_range ix dx -> in_range jx dy -> gel h' t (ix ++ jx) = Some (cadd (gel0 h t (ix ++ jx)) (rsum (map (fun p => cmul (gel0 h x (ix ++ [p])) (gel0 h y (p :: jx))) (zrange K)))).
Proof. intros. now apply add_matmul_ok. Qed.
Print Assumptions C108_add_matmul.
(* the two backward products: x += g y^H and y += x^H g *)
Theorem C108_add_matmul_AH : forall (R : cring) (conj : R -> R) (h : heap (car R)) g x y dx dy K, dx <> [] -> 0 < K -> plain h x (dx ++ [K]) -> plain h y (K :: dy) -> plain h g (dx ++ dy) -> apart x g -> apart x y ->
  exists h', gadd_matmul_AH conj x g y h = Ok h' /\ only_at h h' x (fun ix => in_range ix (dx ++ [K])) /\
    forall ix p, in_range ix dx -> 0 <= p < K -> gel h' x (ix ++ [p]) = Some (cadd (gel0 h x (ix ++ [p])) (rsum (map (fun jx => cmul (gel0 h g (ix ++ jx)) (conj (gel0 h y (p :: jx)))) (all_indices dy)))).
Proof. intros. now apply add_matmul_AH_ok. Qed.
Print Assumptions C108_add_matmul_AH.
Theorem C108_add_matmul_HA : forall (R : cring) (conj : R -> R) (h : heap (car R)) g x y dx dy K, dx <> [] -> 0 < K -> plain h x (dx ++ [K]) -> plain h y (K :: dy) -> plain h g (dx ++ dy) -> apart y g -> apart y x ->
  exists h', gadd_matmul_HA conj y x g h = Ok h' /\ only_at h h' y (fun ix => in_range ix (K :: dy)) /\
    forall p jx, 0 <= p < K -> in_range jx dy -> gel h' y (p :: jx) = Some (cadd (gel0 h y (p :: jx)) (rsum (map (fun ix => cmul (conj (gel0 h x (ix ++ [p]))) (gel0 h g (ix ++ jx))) (all_indices dx)))).
Proof. intros. now apply add_matmul_HA_ok. Qed.
Print Assumptions C108_add_matmul_HA.
(* sizes that do not fit are refused *)
Theorem C108_sizes : forall (R : cring) (conj : R -> R) (junk : R) (h : heap (car R)) t x n k k' m, gdims t = [n; k] ->
  (k <> k' -> gdims x = [k'; m] \/ gdims x = [k'] -> gmatmul junk t x h = Throw) /\ (n <> k' -> gdims x = [k'; m] -> gmatmul_TA junk t x h = Throw) /\
  (forall y z, gk z <> gk x + gk y - 2 -> gadd_matmul z x y h = Throw /\ gadd_matmul_AH conj x z y h = Throw /\ gadd_matmul_HA conj y x z h = Throw).
Proof.
  intros R conj junk h t x n k k' m Ht. unfold gmatmul, gmatmul_TA, gadd_matmul, gadd_matmul_AH, gadd_matmul_HA. rewrite Ht. split; [|split].
  - intros N [Hx|Hx]; rewrite Hx; change (zget [n; k] 1) with (Ok k); change (zget [n; k] 0) with (Ok n); [change (zget [k'; m] 0) with (Ok k')|change (zget [k'] 0) with (Ok k')]; cbn [bind]; rewrite (proj2 (Z.eqb_neq k k') N); reflexivity.
  - intros N Hx. rewrite Hx. change (zget [n; k] 0) with (Ok n). change (zget [k'; m] 0) with (Ok k'). cbn [bind]. rewrite (proj2 (Z.eqb_neq n k') N). reflexivity.
  - intros y z N. rewrite (proj2 (Z.eqb_neq _ _) N). repeat split.
Qed.
Print Assumptions C108_sizes.
(* a vector on the left: strides[-1] is read; an empty contraction: division by zero *)
Theorem C108_add_matmul_refuted : forall (R : cring) (h : heap (car R)) t x y dx dy K,
  (0 < K -> plain h x [K] -> plain h y (K :: dy) -> plain h t dy -> gadd_matmul t x y h = UB) /\
  (plain h x (dx ++ [0]) -> plain h y (0 :: dy) -> plain h t (dx ++ dy) -> gadd_matmul t x y h = UB).
Proof. intros. split; intros; [now apply (add_matmul_vec_ub h t x y K dy)|now apply (add_matmul_zero_ub h t x y dx dy)]. Qed.
Print Assumptions C108_add_matmul_refuted.
Definition g_mats : option (gtensor * gtensor * gtensor * heap Z) :=
  match gnew_by 7 (fun i => i) [2; 3] g_h0 with Ok (x, h1) => match gnew_by 7 (fun i => i) [3; 2] h1 with Ok (y, h2) => match gnew_const 7 1 [2; 2] h2 with Ok (t, h3) => Some (t, x, y, h3) | _ => None end | _ => None end | _ => None end.
Example C108_case : exists t x y h, g_mats = Some (t, x, y, h) /\ heap_ok h /\ plain h x ([2] ++ [3]) /\ plain h y (3 :: [2]) /\ plain h t ([2] ++ [2]) /\ apart t x /\ apart t y /\
  match gmatmul (R := ZRing) 7 x y h with Ok (r, h') => gget r [1; 1] h' | _ => UB end = Ok 40 /\ match gadd_matmul (R := ZRing) t x y h with Ok h' => gget t [1; 1] h' | _ => UB end = Ok 41.
Proof.
  destruct (new_by_ok 7 (fun i => i) [2; 3] g_h0 ltac:(discriminate) ltac:(repeat constructor; lia) g_h0_ok) as (x & h1 & E1 & HX & HA1 & _). assert (O1 : heap_ok h1) by (destruct HA1 as (b & _ & _ & _ & _ & O & _); exact O).
  destruct (new_by_ok 7 (fun i => i) [3; 2] h1 ltac:(discriminate) ltac:(repeat constructor; lia) O1) as (y & h2 & E2 & HY & HA2 & _). assert (O2 : heap_ok h2) by (destruct HA2 as (b & _ & _ & _ & _ & O & _); exact O).
  destruct (new_const_ok 7 1 [2; 2] h2 ltac:(discriminate) ltac:(repeat constructor; lia) O2) as (t & h3 & E3 & HT & HA3 & _). assert (O3 : heap_ok h3) by (destruct HA3 as (b & _ & _ & _ & _ & O & _); exact O).
  assert (Q : match g_mats with Some (t, x, y, h) => (match gmatmul (R := ZRing) 7 x y h with Ok (r, h') => gget r [1; 1] h' | _ => UB end, match gadd_matmul (R := ZRing) t x y h with Ok h' => gget t [1; 1] h' | _ => UB end) | None => (UB, UB) end = (Ok 40, Ok 41)) by (vm_compute; reflexivity).
  assert (Em : g_mats = Some (t, x, y, h3)) by (unfold g_mats; rewrite E1, E2, E3; reflexivity). rewrite Em in Q. exists t, x, y, h3. pose proof (adds_plain h1 y h2 x [2; 3] HA2 HX) as HX2.
  split; [exact Em|]. split; [exact O3|split; [now apply (adds_plain h2 t h3)|split; [now apply (adds_plain h2 t h3)|split; [exact HT|]]]]. pose proof HT as (_ & _ & _ & _ & _ & _ & _ & (b & Hb & _)). unfold apart. rewrite Hb.
  split; [intro W; symmetry in W; revert W; apply (adds_apart h2 t h3 x 6 b HA3 Hb); apply HX2|split; [intro W; symmetry in W; revert W; apply (adds_apart h2 t h3 y 6 b HA3 Hb); apply HY|]].
  revert Q. generalize (match gmatmul (R := ZRing) 7 x y h3 with Ok (r, h') => gget r [1; 1] h' | Throw => UB | UB => UB end) (match gadd_matmul (R := ZRing) t x y h3 with Ok h' => gget t [1; 1] h' | Throw => UB | UB => UB end). intros u w Q. split; congruence.
Qed.
