(* Proofs_Gtensor.v -- stand-alone tensors: loops over arrays, layouts, access, construction. *)
From Verif Require Import Base BaseFacts Model_Index Model_View Model_Tensor Model_Gtensor
  Spec_Index Spec_View Spec_Tensor Spec_Gtensor Proofs_Index Proofs_View2 Proofs_Sparse.
Local Open Scope Z_scope.

(* ---- loops that write cells in order ---- *)
Definition painted {V} (b o n : Z) (g : Z -> V) (h h' : heap V) : Prop :=
  hlive h' = hlive h /\ hnext h' = hnext h /\
  forall b' a, hmem h' b' a = if (b' =? b) && (o <=? a) && (a <? o + n) then Some (g (a - o)) else hmem h b' a.
Section Loops.
Context {V : Type}.
Lemma painted_0 b o (g : Z -> V) h : painted b o 0 g h h.
Proof. split; [reflexivity|split; [reflexivity|]]. intros b' a. destruct (Z.eqb_spec b' b), (Z.leb_spec o a), (Z.ltb_spec a (o + 0)); cbn; try reflexivity; lia. Qed.
Lemma painted_in b o n (g : Z -> V) h h' i : painted b o n g h h' -> 0 <= i < n -> hmem h' b (o + i) = Some (g i).
Proof. intros (_ & _ & E) Hi. rewrite E, Z.eqb_refl. destruct (Z.leb_spec o (o + i)), (Z.ltb_spec (o + i) (o + n)); try lia. cbn. now replace (o + i - o) with i by lia. Qed.
Lemma painted_in0 b n (g : Z -> V) h h' i : painted b 0 n g h h' -> 0 <= i < n -> hmem h' b i = Some (g i).
Proof. intros H Hi. exact (painted_in b 0 n g h h' i H Hi). Qed.
Lemma painted_block b o n (g : Z -> V) h h' b' a : painted b o n g h h' -> b' <> b -> hmem h' b' a = hmem h b' a.
Proof. intros (_ & _ & E) Hn. rewrite E. destruct (Z.eqb_spec b' b); [easy|reflexivity]. Qed.
Lemma painted_out b o n (g : Z -> V) h h' a : painted b o n g h h' -> a < o \/ o + n <= a -> hmem h' b a = hmem h b a.
Proof. intros (_ & _ & E) Hn. rewrite E. destruct (Z.eqb_spec b b), (Z.leb_spec o a), (Z.ltb_spec a (o + n)); cbn; try reflexivity; lia. Qed.
Lemma painted_cells b o n (g : Z -> V) h h' b' a : painted b o n g h h' ->
  (forall i, 0 <= i < n -> hmem h b (o + i) <> None) -> (hmem h' b' a <> None <-> hmem h b' a <> None).
Proof.
  intros (_ & _ & E) Ha. rewrite E. destruct (Z.eqb_spec b' b), (Z.leb_spec o a), (Z.ltb_spec a (o + n)); cbn; try tauto. subst b'.
  split; [intros _|easy]. replace a with (o + (a - o)) by lia. apply Ha. lia.
Qed.
Lemma painted_eq b o n (g g' : Z -> V) h h' : (forall i, 0 <= i < n -> g i = g' i) -> painted b o n g h h' -> painted b o n g' h h'.
Proof.
  intros Hg (E1 & E2 & E). split; [exact E1|split; [exact E2|]]. intros b' a. rewrite E.
  destruct (Z.eqb_spec b' b), (Z.leb_spec o a), (Z.ltb_spec a (o + n)); cbn; try reflexivity. now rewrite Hg by lia.
Qed.
Lemma painted_ok b o n (g : Z -> V) h h' : heap_ok h -> painted b o n g h h' ->
  (forall i, 0 <= i < n -> hmem h b (o + i) <> None) -> heap_ok h'.
Proof.
  intros (H1 & H2 & H3 & H4) P Hc. pose proof (painted_cells b o n g h h') as C. destruct P as (E1 & E2 & E).
  unfold heap_ok. rewrite E1, E2. repeat (split; [assumption|]). intros b' a Hb. apply (H4 b' a). apply (C b' a); [easy|exact Hc|exact Hb].
Qed.
Lemma painted_has b o n (g : Z -> V) h h' t c : painted b o n g h h' -> (forall i, 0 <= i < n -> hmem h b (o + i) <> None) ->
  has_cells h t c -> has_cells h' t c.
Proof.
  intros P Hc (b' & Hb & Hl & Hs). exists b'. split; [exact Hb|split].
  - now rewrite (proj1 P).
  - intro a. now rewrite (painted_cells _ _ _ _ _ _ b' a P Hc).
Qed.

(* a loop over i<n whose i-th round writes cell s+i of a range being painted *)
Lemma paint_from b o (g : Z -> V) h s n (f : Z -> heap V -> res (heap V)) h0 : 0 <= n -> painted b o s g h h0 ->
  (forall i h', 0 <= i < n -> painted b o (s + i) g h h' -> exists h'', f i h' = Ok h'' /\ painted b o (s + i + 1) g h h'') ->
  exists h', forZ n f h0 = Ok h' /\ painted b o (s + n) g h h'.
Proof.
  intros Hn H0 Hs. destruct (forZ_inv (fun i h' => painted b o (s + i) g h h') n f h0) as (h' & E & P).
  - exact Hn.
  - now rewrite Z.add_0_r.
  - intros i h' Hi HP. destruct (Hs i h' Hi HP) as (h'' & E & P'). exists h''. split; [exact E|]. now replace (s + (i + 1)) with (s + i + 1) by lia.
  - eauto.
Qed.
Lemma paint b o (g : Z -> V) h n (f : Z -> heap V -> res (heap V)) : 0 <= n ->
  (forall i h', 0 <= i < n -> painted b o i g h h' -> exists h'', f i h' = Ok h'' /\ painted b o (i + 1) g h h'') ->
  exists h', forZ n f h = Ok h' /\ painted b o n g h h'.
Proof. intros Hn Hs. apply (paint_from b o g h 0 n f h Hn (painted_0 b o g h)). intros i h' Hi HP. cbn in *. now apply Hs. Qed.
Lemma wr_painted b o i (g : Z -> V) h h' t v : 0 <= i -> painted b o i g h h' -> garr t = Some b -> hmem h b (o + i) <> None -> v = g i ->
  exists h'', wr t (o + i) v h' = Ok h'' /\ painted b o (i + 1) g h h''.
Proof.
  intros Hi P Ht Hc ->. unfold wr, store. rewrite Ht, (painted_out b o i g h h' (o + i) P) by lia.
  destruct (hmem h b (o + i)) eqn:Ec; [|easy]. cbn. eexists. split; [reflexivity|]. destruct P as (E1 & E2 & E). split; [exact E1|split; [exact E2|]].
  intros b' a. cbn. unfold upd. destruct (Z.eqb_spec b' b); cbn [andb].
  - subst b'. destruct (Z.eqb_spec a (o + i)).
    + subst a. destruct (Z.leb_spec o (o + i)), (Z.ltb_spec (o + i) (o + (i + 1))); try lia. cbn. now replace (o + i - o) with i by lia.
    + rewrite E, Z.eqb_refl. cbn [andb]. destruct (Z.leb_spec o a), (Z.ltb_spec a (o + i)), (Z.ltb_spec a (o + (i + 1))); cbn; try reflexivity; lia.
  - rewrite E. destruct (Z.eqb_spec b' b); [easy|]. reflexivity.
Qed.
Lemma wr_painted0 b i (g : Z -> V) h h' t v : 0 <= i -> painted b 0 i g h h' -> garr t = Some b -> hmem h b i <> None -> v = g i ->
  exists h'', wr t i v h' = Ok h'' /\ painted b 0 (i + 1) g h h''.
Proof. intros. now apply (wr_painted b 0 i g h h' t v). Qed.
Lemma rd_other b o n (g : Z -> V) h h' x a : painted b o n g h h' -> (garr x <> Some b \/ a < o \/ o + n <= a) -> rd h' x a = rd h x a.
Proof.
  intros P H. unfold rd. destruct (garr x) as [b'|] eqn:E; [|reflexivity]. unfold load. destruct (Z.eq_dec b' b) as [->|N].
  - destruct H as [H|H]; [easy|]. now rewrite (painted_out b o n g h h' a P H).
  - now rewrite (painted_block b o n g h h' b' a P N).
Qed.
Lemma rd_cell (h : heap V) x n a : has_cells h x n -> 0 <= a < n -> exists b v, garr x = Some b /\ hmem h b a = Some v /\ rd h x a = Ok v.
Proof.
  intros (b & Hb & _ & Hs) Ha. apply (Hs a) in Ha. destruct (hmem h b a) as [v|] eqn:E; [|easy]. exists b, v. split; [exact Hb|split; [exact E|]]. unfold rd, load. now rewrite Hb, E.
Qed.

(* ---- allocation ---- *)
Lemma new_ok (j : V) n h : 0 <= n -> heap_ok h -> exists h', new_arr j n h = Ok (hnext h, h') /\ heap_ok h' /\
  hlive h' = hnext h :: hlive h /\ ~ In (hnext h) (hlive h) /\ (forall b' a, b' <> hnext h -> hmem h' b' a = hmem h b' a) /\
  (forall a, hmem h' (hnext h) a = if (0 <=? a) && (a <? n) then Some j else None).
Proof.
  intros Hn (H1 & H2 & H3 & H4). unfold new_arr. destruct (Z.ltb_spec n 0); [lia|]. eexists. split; [reflexivity|].
  assert (Hf : ~ In (hnext h) (hlive h)) by (intro Hi; apply H2 in Hi; lia).
  split; [|split; [reflexivity|split; [exact Hf|split]]].
  - split; [cbn; now constructor|split; [|split; [cbn; lia|]]].
    + cbn. intros b [<-|Hb]; [lia|]. apply H2 in Hb. lia.
    + cbn. intros b a. unfold Model_Tensor.alloc. destruct (Z.eqb_spec b (hnext h)) as [->|N]; [now left|]. intro Hc. right. now apply (H4 b a).
  - intros b' a N. cbn. unfold Model_Tensor.alloc. now destruct (Z.eqb_spec b' (hnext h)).
  - intro a. cbn. unfold Model_Tensor.alloc. now rewrite Z.eqb_refl.
Qed.
Lemma new_throws (j : V) n h : n < 0 -> new_arr j n h = Throw.
Proof. intro H. unfold new_arr. now destruct (Z.ltb_spec n 0); [|lia]. Qed.
Lemma has_mono (h h' : heap V) x n b : has_cells h x n -> ~ In b (hlive h) -> (forall c, In c (hlive h) -> In c (hlive h')) ->
  (forall b' a, b' <> b -> hmem h' b' a = hmem h b' a) -> has_cells h' x n.
Proof.
  intros (c & Hc & Hl & Hs) Hb Hi He. exists c. split; [exact Hc|split; [now apply Hi|]]. intro a. rewrite He; [apply Hs|]. intros ->. contradiction.
Qed.
End Loops.

(* ---- layouts ---- *)
Lemma strides_ok dims : dims <> [] -> make_strides dims = Ok (strides_of 1 dims, prod dims).
Proof. intro H. destruct dims as [|d ds]; [easy|]. unfold make_strides. rewrite strides_of_cons, prod_cons. do 2 f_equal. ring. Qed.
Lemma strides_none : make_strides [] = UB. Proof. reflexivity. Qed.
Lemma strides_pad_ok adims dims : adims <> [] -> dims <> [] ->
  make_strides_pad adims dims = Ok (strides_of (roundup (prod dims) 32) adims ++ strides_of 1 dims, roundup (prod dims) 32 * prod adims).
Proof.
  intros Ha Hd. destruct adims as [|a al]; [easy|]. destruct dims as [|d ds]; [easy|]. unfold make_strides_pad. rewrite (strides_of_cons 1 d ds).
  replace (1 * prod ds * d) with (prod (d :: ds)) by (rewrite prod_cons; ring). rewrite (strides_of_cons _ a al), <- (strides_of_cons 1 d ds). do 2 f_equal. rewrite (prod_cons a al). ring.
Qed.
Lemma roundup_spec c s : 1 < s -> 0 <= c -> c <= roundup c s /\ (exists q, roundup c s = q * s) /\ (0 < c -> roundup c s < c + s) /\ 0 < roundup c s.
Proof.
  intros Hs Hc. unfold roundup. destruct (Z.eq_dec c 0) as [->|N].
  - replace (Z.quot (0 - 1) s) with 0.
    2:{ change (0 - 1) with (- (1)). rewrite Z.quot_opp_l by lia. now rewrite (Z.quot_small 1 s) by lia. }
    split; [lia|split; [now exists 1|split; lia]].
  - rewrite Z.quot_div_nonneg by lia. pose proof (Z.div_mod (c - 1) s). pose proof (Z.mod_pos_bound (c - 1) s).
    split; [nia|split; [eexists; reflexivity|split; nia]].
Qed.

(* ---- offsets ---- *)
Lemma off_gen n : forall (ix p q : list Z) t0, (n <= length ix)%nat -> (n <= length q)%nat ->
  forZ (Z.of_nat n) (fun i t => do x <- zget ix i; do y <- zget (p ++ q) (Z.of_nat (length p) + i); Ok (t + x * y)) t0 = Ok (t0 + dot q (firstn n ix)).
Proof.
  induction n as [|n IH]; intros ix p q t0 Hi Hq.
  - cbn [firstn]. rewrite dot_nil_r, Z.add_0_r. reflexivity.
  - destruct ix as [|x ix]; [cbn in Hi; lia|]. destruct q as [|y q]; [cbn in Hq; lia|]. cbn in Hi, Hq. unfold forZ. rewrite zrange_cons by lia. cbn [foldM].
    replace (Z.of_nat (S n) - 1) with (Z.of_nat n) by lia. rewrite Z.add_0_r.
    assert (E0 : zget (p ++ y :: q) (Z.of_nat (length p)) = Ok y).
    { unfold zget, vget. destruct (Z.ltb_spec (Z.of_nat (length p)) 0); [lia|]. rewrite Nat2Z.id, nth_error_app2, Nat.sub_diag by lia. reflexivity. }
    rewrite E0. cbn [zget vget bind nth_error Z.ltb Z.to_nat]. change (zget (x :: ix) 0) with (Ok x). cbn [bind].
    rewrite foldM_map. specialize (IH ix (p ++ [y]) q (t0 + x * y) ltac:(lia) ltac:(lia)). unfold forZ in IH. rewrite <- app_assoc, app_length in IH. cbn [app length] in IH.
    cbn [firstn dot]. replace (t0 + (y * x + dot q (firstn n ix))) with (t0 + x * y + dot q (firstn n ix)) by ring. rewrite <- IH. apply foldM_ext.
    intros i t Hin. apply in_zrange in Hin. replace (Z.of_nat (length p + 1) + i) with (Z.of_nat (length p) + Z.succ i) by lia. f_equal.
    unfold zget. destruct (Z.ltb_spec (Z.succ i) 0), (Z.ltb_spec i 0); try lia. replace (Z.to_nat (Z.succ i)) with (S (Z.to_nat i)) by lia. reflexivity.
Qed.
Lemma off_short n : forall (ix p q : list Z) t0, (length ix < n)%nat -> (n <= length q)%nat ->
  forZ (Z.of_nat n) (fun i t => do x <- zget ix i; do y <- zget (p ++ q) (Z.of_nat (length p) + i); Ok (t + x * y)) t0 = UB.
Proof.
  induction n as [|n IH]; intros ix p q t0 Hi Hq; [lia|]. destruct q as [|y q]; [cbn in Hq; lia|]. cbn in Hq. unfold forZ. rewrite zrange_cons by lia. cbn [foldM].
  replace (Z.of_nat (S n) - 1) with (Z.of_nat n) by lia. destruct ix as [|x ix]; [reflexivity|]. cbn in Hi. rewrite Z.add_0_r.
  assert (E0 : zget (p ++ y :: q) (Z.of_nat (length p)) = Ok y).
  { unfold zget, vget. destruct (Z.ltb_spec (Z.of_nat (length p)) 0); [lia|]. rewrite Nat2Z.id, nth_error_app2, Nat.sub_diag by lia. reflexivity. }
  rewrite E0. change (zget (x :: ix) 0) with (Ok x). cbn [bind].
  rewrite foldM_map. specialize (IH ix (p ++ [y]) q (t0 + x * y) ltac:(lia) ltac:(lia)). unfold forZ in IH. rewrite <- app_assoc, app_length in IH. cbn [app length] in IH.
  rewrite <- IH. apply foldM_ext. intros i t Hin. apply in_zrange in Hin. replace (Z.of_nat (length p + 1) + i) with (Z.of_nat (length p) + Z.succ i) by lia. f_equal.
  unfold zget. destruct (Z.ltb_spec (Z.succ i) 0), (Z.ltb_spec i 0); try lia. replace (Z.to_nat (Z.succ i)) with (S (Z.to_nat i)) by lia. reflexivity.
Qed.
Lemma off_from_ok (p q ix : list Z) t0 b : b = Z.of_nat (length p) + Z.of_nat (length ix) -> (length ix <= length q)%nat ->
  off_from (Z.of_nat (length p)) b ix (p ++ q) t0 = Ok (t0 + dot q ix).
Proof.
  intros -> Hq. unfold off_from. replace (Z.of_nat (length p) + Z.of_nat (length ix) - Z.of_nat (length p)) with (Z.of_nat (length ix)) by lia.
  rewrite off_gen by lia. now rewrite firstn_all.
Qed.
Lemma off_from0 (s ix : list Z) b : b = Z.of_nat (length ix) -> (length ix <= length s)%nat -> off_from 0 b ix s 0 = Ok (dot s ix).
Proof. intros -> H. exact (off_from_ok [] s ix 0 (Z.of_nat (length ix)) eq_refl H). Qed.
Lemma dot_app p q ix jx : length ix = length p -> dot (p ++ q) (ix ++ jx) = dot p ix + dot q jx.
Proof. revert ix. induction p as [|a p IH]; intros [|i ix] H; try discriminate; [reflexivity|]. cbn [app dot]. rewrite IH by (now injection H). ring. Qed.
Lemma dot_long : forall s ix rest, length ix = length s -> dot s (ix ++ rest) = dot s ix.
Proof. induction s as [|a s IH]; intros [|i ix] rest H; try discriminate; [destruct rest; reflexivity|]. cbn [app dot]. now rewrite IH by (now injection H). Qed.
Lemma split_strides (s ix jx : list Z) : length s = length (ix ++ jx) -> s = firstn (length ix) s ++ skipn (length ix) s /\
  length (firstn (length ix) s) = length ix /\ length (skipn (length ix) s) = length jx.
Proof. intro H. rewrite app_length in H. split; [now rewrite firstn_skipn|]. split; [rewrite firstn_length; lia|rewrite skipn_length; lia]. Qed.

Lemma goff_ok t ix : gk t = Z.of_nat (length ix) -> length (gstr t) = length ix -> goff t ix = Ok (dot (gstr t) ix).
Proof. intros Hk Hs. unfold goff. apply off_from0; [exact Hk|lia]. Qed.
Lemma goff2_ok t ix jx : gk t = Z.of_nat (length (ix ++ jx)) -> length (gstr t) = length (ix ++ jx) -> goff2 t ix jx = Ok (dot (gstr t) (ix ++ jx)).
Proof.
  intros Hk Hs. unfold goff2. destruct (split_strides _ _ _ Hs) as (E & L1 & L2). rewrite off_from0 by (auto; rewrite Hs, app_length; lia). cbn [bind].
  revert E L1 L2. generalize (firstn (length ix) (gstr t)) (skipn (length ix) (gstr t)). intros p q E L1 L2. rewrite E, <- L1.
  rewrite off_from_ok by (rewrite ?Hk, ?app_length; lia). rewrite dot_app by lia. f_equal. f_equal.
  replace ix with (ix ++ []) at 1 by apply app_nil_r. rewrite dot_app by lia. rewrite dot_nil_r. ring.
Qed.
Lemma goff_arr_ok t ix js : gk t = Z.of_nat (length (ix ++ js)) -> length (gstr t) = length (ix ++ js) -> goff_arr t ix js = Ok (dot (gstr t) (ix ++ js)).
Proof.
  intros Hk Hs. rewrite <- (goff2_ok t ix js Hk Hs). unfold goff_arr, goff2. replace (gk t - Z.of_nat (length js)) with (Z.of_nat (length ix)) by (rewrite Hk, app_length; lia).
  now rewrite Z.eqb_refl.
Qed.
Lemma goff_n_ok t ix : gk t = Z.of_nat (length ix) -> length (gstr t) = length ix -> goff_n t ix = Ok (dot (gstr t) ix).
Proof. intros Hk Hs. unfold goff_n. rewrite Hk, Z.eqb_refl. cbn [assrt]. apply off_from0; [reflexivity|lia]. Qed.

(* ---- elements ---- *)
Lemma vaddr_g t b ix : garr t = Some b -> length ix = length (gstr t) -> vaddr (gview t) ix = Ok (b, dot (gstr t) ix).
Proof. intros Hb L. unfold vaddr, gview, offs. cbn. rewrite Hb, L, Nat.leb_refl. reflexivity. Qed.
Lemma gel_eq {V} (h : heap V) t b ix : garr t = Some b -> length ix = length (gstr t) -> gel h t ix = hmem h b (dot (gstr t) ix).
Proof. intros Hb L. unfold gel, elem. now rewrite Hb, (vaddr_g t b ix Hb L). Qed.
Section Access.
Context {V : Type}.
Lemma laid_len (h : heap V) t dims ix : laid h t dims -> in_range ix dims -> length ix = length (gstr t) /\ gk t = Z.of_nat (length ix).
Proof. intros (_ & Hk & Hs & _) Hr. apply in_range_length in Hr. split; congruence. Qed.
Lemma laid_rd (h : heap V) t dims ix : laid h t dims -> in_range ix dims -> exists b v, garr t = Some b /\ gel h t ix = Some v /\ rd h t (dot (gstr t) ix) = Ok v /\ hmem h b (dot (gstr t) ix) = Some v.
Proof.
  intros HL Hr. destruct (laid_len h t dims ix HL Hr) as (L & _). destruct HL as (_ & _ & _ & _ & Hc & _ & Hi).
  destruct (rd_cell h t _ _ Hc (Hi ix Hr)) as (b & v & Hb & Hm & Hrd). exists b, v. rewrite (gel_eq h t b ix Hb L). auto.
Qed.
Lemma wr_elem (h : heap V) t dims ix v : laid h t dims -> in_range ix dims -> exists h', wr t (dot (gstr t) ix) v h = Ok h' /\
  gel h' t ix = Some v /\ only_at h h' t (eq ix) /\ (forall jx, in_range jx dims -> jx <> ix -> gel h' t jx = gel h t jx).
Proof.
  intros HL Hr. destruct (laid_len h t dims ix HL Hr) as (L & _). destruct (laid_rd h t dims ix HL Hr) as (b & v0 & Hb & Hv & Hrd & Hm).
  unfold wr, store. rewrite Hb, Hm. cbn. eexists. split; [reflexivity|].
  assert (O : forall b' a, b' <> b \/ a <> dot (gstr t) ix -> upd (hmem h) b (dot (gstr t) ix) v b' a = hmem h b' a).
  { intros b' a N. unfold upd. destruct (Z.eqb_spec b' b), (Z.eqb_spec a (dot (gstr t) ix)); cbn; try reflexivity. destruct N; contradiction. }
  split; [|split].
  - rewrite (gel_eq _ t b ix Hb L). cbn. apply upd_same.
  - split; [reflexivity|split; [reflexivity|]]. intros b' a N. cbn. apply O. specialize (N ix eq_refl). rewrite (vaddr_g t b ix Hb L) in N.
    destruct (Z.eq_dec b' b) as [->|]; [right; intros ->; now apply N|now left].
  - intros jx Hj N. destruct (laid_len h t dims jx HL Hj) as (Lj & _). rewrite !(gel_eq _ t b jx Hb Lj). cbn. apply O. right. intro Ed. apply N.
    destruct HL as (Hd & _ & _ & _ & _ & Hdist & _). apply (Hdist jx ix); [cbn; now rewrite Hd|cbn; now rewrite Hd|]. now rewrite !(vaddr_g t b) by assumption; f_equal; f_equal.
Qed.
Lemma get_ok (h : heap V) t dims ix : laid h t dims -> in_range ix dims -> exists v, gel h t ix = Some v /\ gget t ix h = Ok v.
Proof.
  intros HL Hr. destruct (laid_len h t dims ix HL Hr) as (L & K). destruct (laid_rd h t dims ix HL Hr) as (b & v0 & Hb & Hv & Hrd & _). exists v0. split; [exact Hv|].
  unfold gget. now rewrite goff_ok by (auto; lia).
Qed.
Lemma set_ok (h : heap V) t dims ix v : laid h t dims -> in_range ix dims -> exists h', gset t ix v h = Ok h' /\
  gel h' t ix = Some v /\ only_at h h' t (eq ix) /\ (forall jx, in_range jx dims -> jx <> ix -> gel h' t jx = gel h t jx).
Proof. intros HL Hr. destruct (laid_len h t dims ix HL Hr) as (L & K). unfold gset. rewrite goff_ok by (auto; lia). cbn [bind]. now apply wr_elem. Qed.
Lemma inc_ok plus (h : heap V) t dims ix v : laid h t dims -> in_range ix dims -> exists h' w, gel h t ix = Some w /\ ginc plus t ix v h = Ok h' /\
  gel h' t ix = Some (plus w v) /\ only_at h h' t (eq ix) /\ (forall jx, in_range jx dims -> jx <> ix -> gel h' t jx = gel h t jx).
Proof.
  intros HL Hr. destruct (laid_len h t dims ix HL Hr) as (L & K). destruct (laid_rd h t dims ix HL Hr) as (b & w & Hb & Hv & Hrd & _).
  unfold ginc. rewrite goff_ok by (auto; lia). cbn [bind]. rewrite Hrd. cbn [bind]. destruct (wr_elem h t dims ix (plus w v) HL Hr) as (h' & E & R). exists h', w. auto.
Qed.
(* the other forms of access find the same cell *)
Lemma access2 (h : heap V) t dims ix jx : laid h t dims -> in_range (ix ++ jx) dims -> goff2 t ix jx = goff t (ix ++ jx).
Proof. intros HL Hr. destruct (laid_len h t dims _ HL Hr) as (L & K). rewrite goff2_ok, goff_ok by (auto; lia). reflexivity. Qed.
Lemma access_arr (h : heap V) t dims ix js : laid h t dims -> in_range (ix ++ js) dims -> goff_arr t ix js = goff t (ix ++ js).
Proof. intros HL Hr. destruct (laid_len h t dims _ HL Hr) as (L & K). rewrite goff_arr_ok, goff_ok by (auto; lia). reflexivity. Qed.
Lemma access_n (h : heap V) t dims ix : laid h t dims -> in_range ix dims -> goff_n t ix = goff t ix.
Proof. intros HL Hr. destruct (laid_len h t dims _ HL Hr) as (L & K). rewrite goff_n_ok, goff_ok by (auto; lia). reflexivity. Qed.
Lemma get_short (h : heap V) t dims ix : laid h t dims -> (length ix < length dims)%nat -> gget t ix h = UB.
Proof. intros (_ & Hk & Hs & _) Hl. unfold gget, goff, off_from. rewrite Hk, Z.sub_0_r.
  pose proof (off_short (length dims) ix [] (gstr t) 0 Hl ltac:(lia)) as E. change (Z.of_nat (length (@nil Z))) with 0 in E. cbn [app] in E. now rewrite E. Qed.
Lemma get_long (h : heap V) t dims ix rest : laid h t dims -> length ix = length dims -> gget t (ix ++ rest) h = gget t ix h.
Proof.
  intros (_ & Hk & Hs & _) Hl. unfold gget, goff, off_from. rewrite Hk, Z.sub_0_r.
  pose proof (fun l Hl => off_gen (length dims) l [] (gstr t) 0 Hl ltac:(lia)) as E. change (Z.of_nat (length (@nil Z))) with 0 in E. cbn [app] in E.
  rewrite !E by (rewrite ?app_length; lia). rewrite <- Hl, firstn_app, Nat.sub_diag, firstn_O, app_nil_r. reflexivity.
Qed.
End Access.
