(* Proofs_HView2.v -- sums, reductions and broadcasts along one axis of a view of any rank. *)
From Verif Require Import Base BaseFacts Model_Index Model_View Model_Tensor Model_Ops Model_RView Model_Gtensor Model_HView Spec_Index Spec_View Spec_Tensor Spec_Ops Spec_RView Spec_HView
  Proofs_Axes Proofs_Index Proofs_View Proofs_Ltensor Proofs_Tensor Proofs_Tensor2 Proofs_Tensor3 Proofs_Convolve2 Proofs_Ops2 Proofs_Ops3 Proofs_RView Proofs_RView2 Proofs_RView3 Proofs_RView4 Proofs_RView5 Proofs_RView6 Proofs_Block3 Proofs_HView.
Local Open Scope Z_scope.

(* ---- the list with entries d and d+1 combined ---- *)
Definition merge (f : Z -> Z -> Z) (d : nat) (l : list Z) : list Z := firstn d l ++ f (nth d l 0) (nth (S d) l 0) :: skipn (S (S d)) l.
Lemma fused_merge d q ix : fused d q ix = merge (fun a b => a * q + b) d ix.
Proof. reflexivity. Qed.
Lemma fuse_dims d v : vdims (hv_fuse d v) = merge Z.mul d (vdims v).
Proof. reflexivity. Qed.
Lemma merge_at f d l1 a b l2 : length l1 = d -> merge f d (l1 ++ a :: b :: l2) = l1 ++ f a b :: l2.
Proof. intro L. unfold merge. rewrite firstn_at by assumption. rewrite (nth_at l1 _ d 0), (nth_at l1 _ d 1), (skipn_at l1 _ d 2) by assumption. reflexivity. Qed.
Lemma fuse_strs d v : (S d < length (vstr v))%nat -> vstr (hv_fuse d v) = merge (fun _ b => b) d (vstr v).
Proof.
  intro H. unfold hv_fuse. cbn [vstr]. destruct (cut2 _ _ H) as (l1 & a & b & l2 & -> & L). rewrite merge_at by assumption. unfold but. rewrite firstn_at by assumption. f_equal. now rewrite (skipn_at l1 _ d 1).
Qed.
Lemma nth_merge f d l e : (S d < length l)%nat -> nth e (merge f d l) 0 = if (e <? d)%nat then nth e l 0 else if (e =? d)%nat then f (nth d l 0) (nth (S d) l 0) else nth (S e) l 0.
Proof.
  intro H. destruct (cut2 _ _ H) as (l1 & a & b & l2 & -> & L). rewrite merge_at by assumption. destruct (Nat.ltb_spec e d); [rewrite !app_nth1 by lia; reflexivity|].
  destruct (Nat.eqb_spec e d) as [->|]; [rewrite (nth_at l1 _ d 0), (nth_at l1 _ d 0), (nth_at l1 _ d 1) by assumption; reflexivity|].
  rewrite !app_nth2 by lia. replace (S e - length l1)%nat with (S (S (e - d - 1))) by lia. replace (e - length l1)%nat with (S (e - d - 1)) by lia. reflexivity.
Qed.
Lemma merge_length f d l : (S d < length l)%nat -> S (length (merge f d l)) = length l.
Proof. intro H. destruct (cut2 _ _ H) as (l1 & a & b & l2 & -> & L). rewrite merge_at by assumption. rewrite !app_length. cbn. lia. Qed.
Lemma ins_app_l d x l1 l2 : (d <= length l1)%nat -> ins d x (l1 ++ l2) = ins d x l1 ++ l2.
Proof. revert l1. induction d as [|d IH]; intros [|a l1] H; cbn in *; try lia; try reflexivity. now rewrite IH by lia. Qed.
Lemma ins_app_r d x l1 l2 : (length l1 <= d)%nat -> ins d x (l1 ++ l2) = l1 ++ ins (d - length l1) x l2.
Proof. revert d. induction l1 as [|a l1 IH]; intros d H; cbn in *; [now rewrite Nat.sub_0_r|]. destruct d as [|d]; [lia|]. cbn. now rewrite IH by lia. Qed.
Lemma ins_len d x l : length (ins d x l) = S (length l).
Proof. revert l. induction d as [|d IH]; intros [|a l]; cbn; try reflexivity. now rewrite IH. Qed.

(* the axis a after fusing d and d+1, and the pair of axes d,d+1 after dropping a *)
Definition lower (a d : nat) : nat := if (a <? d)%nat then a else pred a.
Definition lower2 (a d : nat) : nat := if (a <? d)%nat then pred d else d.
Lemma merge_ins f d a i l : a <> d -> a <> S d -> (a <= length l)%nat -> (S d <= length l)%nat ->
  merge f d (ins a i l) = ins (lower a d) i (merge f (lower2 a d) l).
Proof.
  intros N1 N2 Ha Hd. unfold lower, lower2. destruct (Nat.ltb_spec a d) as [H|H].
  - destruct (cut2 l (pred d)) as (l1 & x & y & l2 & -> & L); [lia|]. rewrite ins_app_l by lia. rewrite (merge_at f (pred d)) by assumption. rewrite ins_app_l by lia. apply merge_at. rewrite ins_len. lia.
  - destruct (cut2 l d) as (l1 & x & y & l2 & -> & L); [lia|]. rewrite ins_app_r by lia. replace (a - length l1)%nat with (S (S (a - d - 2))) by lia. cbn [ins]. rewrite !merge_at by assumption.
    rewrite ins_app_r by lia. replace (pred a - length l1)%nat with (S (a - d - 2)) by lia. reflexivity.
Qed.
Lemma merge_range d ix l : in_range ix l -> (S d < length l)%nat -> in_range (merge (fun a b => a * nth (S d) l 0 + b) d ix) (merge Z.mul d l).
Proof.
  intros H L. destruct (cut2 _ _ L) as (l1 & p & q & l2 & -> & K). destruct (cut_in _ _ _ d H K) as (j1 & j2 & -> & A & B & J). apply cut_cons in B as (a & j3 & -> & Ha & B). apply cut_cons in B as (b & j4 & -> & Hb & B).
  rewrite !merge_at by assumption. rewrite (nth_at l1 _ d 1) by assumption. cbn [nth]. apply in_range_app_i; [assumption|]. apply in_range_cons. split; [nia|assumption].
Qed.
Lemma lower_nth a d (v : view) : a <> d -> a <> S d -> (S d < length (vdims v))%nat -> nth (lower a d) (vdims (hv_fuse d v)) 0 = nth a (vdims v) 0.
Proof.
  intros N1 N2 H. rewrite fuse_dims, nth_merge by assumption. unfold lower. destruct (Nat.ltb_spec a d) as [K|K].
  - apply Nat.ltb_lt in K as ->. reflexivity.
  - destruct (Nat.ltb_spec (pred a) d); [lia|]. destruct (Nat.eqb_spec (pred a) d); [lia|]. f_equal. lia.
Qed.
Lemma lower2_nth a d (l : list Z) : a <> d -> a <> S d -> nth (S (lower2 a d)) (del a l) 0 = nth (S d) l 0.
Proof.
  intros N1 N2. rewrite nth_del. unfold lower2. destruct (Nat.ltb_spec a d) as [K|K].
  - destruct (Nat.ltb_spec (S (pred d)) a); [lia|]. f_equal. lia.
  - destruct (Nat.ltb_spec (S d) a); [reflexivity|lia].
Qed.
(* an index without its entry a, fused *)
Lemma fuse_axis d a v jx i : vwf v -> a <> d -> a <> S d -> (S d < length (vdims v))%nat -> (a < length (vdims v))%nat -> in_range jx (del a (vdims v)) ->
  let q := nth (S d) (vdims v) 0 in let jx' := fused (lower2 a d) q jx in
  in_range jx' (del (lower a d) (vdims (hv_fuse d v))) /\ ins (lower a d) i jx' = fused d q (ins a i jx).
Proof.
  intros W N1 N2 H1 H2 Hj q jx'. pose proof (in_range_length _ _ Hj) as L. rewrite del_length in L by assumption.
  assert (E : forall f, merge f d (vdims v) = ins (lower a d) (nth a (vdims v) 0) (merge f (lower2 a d) (del a (vdims v)))).
  { intro f. rewrite <- (ins_del a (vdims v)) at 1 by assumption. apply merge_ins; try assumption; rewrite del_length by assumption; lia. }
  split.
  - rewrite fuse_dims, E. rewrite del_ins.
    + unfold jx', q. rewrite fused_merge. rewrite <- (lower2_nth a d (vdims v)) by assumption. apply merge_range; [assumption|]. rewrite del_length by assumption. unfold lower2. destruct (Nat.ltb_spec a d); lia.
    + assert (LL : (S (lower2 a d) < length (del a (vdims v)))%nat) by (rewrite del_length by assumption; unfold lower2; destruct (Nat.ltb_spec a d); lia).
      pose proof (merge_length Z.mul _ _ LL) as M. rewrite del_length in * by assumption. unfold lower. destruct (Nat.ltb_spec a d); lia.
  - unfold jx'. rewrite !fused_merge. symmetry. apply merge_ins; try assumption; lia.
Qed.
Lemma fuse_joined d a v : vwf v -> (S d < length (vdims v))%nat -> a <> d -> a <> S d -> joined_except a v -> joined_except (lower a d) (hv_fuse d v).
Proof.
  intros [Ws Wn] H N1 N2 J e He E1 E2. rewrite fuse_dims in He. pose proof (merge_length Z.mul d (vdims v) H) as L. unfold joined. rewrite fuse_dims, fuse_strs by lia. rewrite !nth_merge by lia.
  unfold lower in E1, E2. pose proof (fun e A B C => J e A B C) as J'. unfold joined in J'.
  destruct (Nat.ltb_spec e d) as [K|K].
  - destruct (Nat.ltb_spec (S e) d) as [K2|K2]; [apply J'; destruct (Nat.ltb_spec a d); lia|]. assert (d = S e) by lia. subst d. rewrite Nat.eqb_refl.
    rewrite (J' e), (J' (S e)) by (destruct (Nat.ltb_spec a (S e)); lia). ring.
  - destruct (Nat.ltb_spec (S e) d); [lia|]. destruct (Nat.eqb_spec (S e) d); [lia|]. destruct (Nat.eqb_spec e d) as [->|].
    + apply J'; destruct (Nat.ltb_spec a d); lia.
    + apply J'; destruct (Nat.ltb_spec a d); lia.
Qed.
(* row-major, axis by axis *)
Definition rowm (v : view) : Prop := (forall d, (S d < length (vdims v))%nat -> joined v d) /\ nth (pred (length (vdims v))) (vstr v) 0 = 1.
Lemma strides_joined n : forall d, (S d < length n)%nat -> nth d (strides_of 1 n) 0 = nth (S d) n 0 * nth (S d) (strides_of 1 n) 0.
Proof.
  induction n as [|a n IH]; intros d H; [cbn in H; lia|]. destruct n as [|b n]; [cbn in H; lia|]. change (strides_of 1 (a :: b :: n)) with (match strides_of 1 (b :: n) with [] => [1] | s1 :: ss => s1 * hd 0 (b :: n) :: s1 :: ss end).
  destruct (strides_of 1 (b :: n)) as [|s ss] eqn:E. { exfalso. cbn in E. destruct (strides_of 1 n); discriminate. }
  destruct d as [|d]; [cbn [nth hd]; ring|]. cbn [nth]. apply (IH d). cbn in *. lia.
Qed.
Lemma strides_last n : n <> [] -> nth (pred (length n)) (strides_of 1 n) 0 = 1.
Proof.
  induction n as [|a n IH]; intro H; [congruence|]. destruct n as [|b n]; [reflexivity|]. change (strides_of 1 (a :: b :: n)) with (match strides_of 1 (b :: n) with [] => [1] | s1 :: ss => s1 * hd 0 (b :: n) :: s1 :: ss end).
  destruct (strides_of 1 (b :: n)) as [|s ss] eqn:E. { exfalso. cbn in E. destruct (strides_of 1 n); discriminate. }
  cbn [length pred nth]. specialize (IH ltac:(discriminate)). exact IH.
Qed.
Lemma regular_rowm v : regular v -> vdims v <> [] -> rowm v.
Proof. intros E N. unfold rowm, joined. rewrite E. split; [apply strides_joined|now apply strides_last]. Qed.
Lemma fuse_rowm d v : vwf v -> (S d < length (vdims v))%nat -> rowm v -> rowm (hv_fuse d v).
Proof.
  intros [Ws Wn] H [J K]. pose proof (merge_length Z.mul d (vdims v) H) as L. split.
  - intros e He. rewrite fuse_dims in He. unfold joined. rewrite fuse_dims, fuse_strs by lia. rewrite !nth_merge by lia. pose proof J as J'. unfold joined in J'.
    destruct (Nat.ltb_spec e d) as [A|A].
    + destruct (Nat.ltb_spec (S e) d) as [K2|K2]; [apply J'; lia|]. assert (d = S e) by lia. subst d. rewrite Nat.eqb_refl. rewrite (J' e), (J' (S e)) by lia. ring.
    + destruct (Nat.ltb_spec (S e) d); [lia|]. destruct (Nat.eqb_spec (S e) d); [lia|]. destruct (Nat.eqb_spec e d) as [->|]; apply J'; lia.
  - rewrite fuse_dims, fuse_strs, nth_merge by lia. replace (pred (length (merge Z.mul d (vdims v)))) with (length (vdims v) - 2)%nat by lia.
    destruct (Nat.ltb_spec (length (vdims v) - 2) d); [lia|]. destruct (Nat.eqb_spec (length (vdims v) - 2) d).
    + rewrite <- K. f_equal. lia.
    + rewrite <- K. f_equal. lia.
Qed.
Lemma rowm_joined a v : rowm v -> joined_except a v.
Proof. intros [J _] d H _ _. now apply J. Qed.
Lemma rowm_reg3 v : length (vdims v) = 3%nat -> rowm v -> reg3 v = true.
Proof.
  intros L [J K]. rewrite L in *. pose proof (J 0%nat ltac:(lia)) as J0. pose proof (J 1%nat ltac:(lia)) as J1. unfold joined in J0, J1. cbn [pred] in K. unfold reg3, nd, sd. rewrite K, J1 in *.
  rewrite J0. rewrite !Z.mul_1_r, !Z.eqb_refl. reflexivity.
Qed.
Lemma fuse_distinct d v : vwf v -> (S d < length (vdims v))%nat -> joined v d -> distinct_cells v -> distinct_cells (hv_fuse d v).
Proof.
  intros W H J Hd. destruct (fuse_shows d v W H J) as (Wf & _ & S & _). apply (shows_distinct _ v (unfused d (nth (Datatypes.S d) (vdims v) 0)) S); [|assumption].
  destruct (fuse_shape d v W H) as (l1 & p & q & l2 & t1 & s & t & t2 & D & T & L & M & Lt & Np & Nq & N1 & N2 & E). rewrite E. cbn [vdims]. intros ix jx Hi Hj.
  destruct (cut_in _ _ _ d Hi L) as (i1 & i2 & -> & A & B & K). apply cut_cons in B as (c & i3 & -> & Hc & B).
  destruct (cut_in _ _ _ d Hj L) as (j1 & j2 & -> & A' & B' & K'). apply cut_cons in B' as (c' & j3 & -> & Hc' & B').
  rewrite !unfused_at by assumption. rewrite D, (nth_at l1 _ d 1) by assumption. cbn [nth]. intro Q. assert (Q1 : i1 = j1) by (apply (f_equal (firstn d)) in Q; rewrite !firstn_at in Q by assumption; exact Q). subst j1.
  apply app_inv_head in Q. injection Q as Q1 Q2 ->. do 2 f_equal. rewrite (Z.div_mod c q), (Z.div_mod c' q) by nia. now rewrite Q1, Q2.
Qed.

Section Ring.
Context {R : cring}.
Notation memR := (mem (car R)).
Implicit Types m : memR.

(* ---- add ---- *)
Lemma nestL_fold {T} n : forall (body : list Z -> T -> res T) st, nestL n body st = foldM body (all_indices n) st.
Proof.
  induction n as [|n0 n IH]; intros body st; cbn [nestL all_indices].
  - cbn [foldM]. now destruct (body [] st).
  - unfold forZ. generalize (zrange n0). intro l. revert st. induction l as [|i l IHl]; intro st; cbn [foldM flat_map]; [reflexivity|].
    rewrite foldM_app, IH, foldM_map. destruct (foldM (fun ix => body (i :: ix)) (all_indices n) st) as [s| |]; cbn [bind]; [apply IHl|reflexivity|reflexivity].
Qed.
Lemma hadd_ok r y m : zipable r y m -> exists m', hv_add r y m = Ok m' /\ updates cadd r y m m'.
Proof.
  intro Z. pose proof (zip_dims _ _ _ Z) as D. unfold hv_add. rewrite D, eqlb_refl. cbn [assrt]. rewrite nestL_fold.
  destruct (zipable_each f_add1 r y m Z) as (m' & E & H). exists m'. split; [exact E|]. now apply (ew_updates f_add1).
Qed.
Lemma hadd_refuses r y m : vdims y <> vdims r -> hv_add r y m = Throw.
Proof. intro N. unfold hv_add. destruct (eqlb (vdims y) (vdims r)) eqn:E; [|reflexivity]. exfalso. apply N. now apply eqlb_eq. Qed.
Lemma add_any_ok r y m : zipable r y m -> exists m', add_any r y m = Ok m' /\ updates cadd r y m m'.
Proof.
  intro Z. unfold add_any. destruct (Nat.eqb_spec (length (vdims r)) 3) as [L|L]; [|now apply hadd_ok].
  destruct (vdims r) as [|n0 [|n1 [|n2 [|? ?]]]] eqn:D; try discriminate. now apply (add3_ok r y m n0 n1 n2).
Qed.

(* ---- reductions ---- *)
Definition red (g : list R -> R) (a : nat) (v : view) m m' : Prop :=
  exists G, becomes v G m m' /\ forall jx, in_range jx (del a (vdims v)) -> G (ins a 0 jx) = g (map (fun i => elem0 m v (ins a i jx)) (zrange (nth a (vdims v) 0))).
Lemma red_reduced g a v m m' : (a < length (vdims v))%nat -> 1 <= nth a (vdims v) 0 -> red g a v m m' -> reduced g a v m m'.
Proof.
  intros La H (G & [B U] & E). split; [|exact U]. intros jx Hj. rewrite B; [now rewrite E|]. apply in_range_ins_del; try assumption. lia.
Qed.
Lemma red_fuse g a d v m m' : vwf v -> (S d < length (vdims v))%nat -> (a < length (vdims v))%nat -> a <> d -> a <> S d -> joined v d ->
  red g (lower a d) (hv_fuse d v) m m' -> red g a v m m'.
Proof.
  intros W H La N1 N2 J (G & B & E). destruct (fuse_shows d v W H J) as (Wf & _ & S & I). set (q := nth (Datatypes.S d) (vdims v) 0) in *.
  exists (fun ix => G (fused d q ix)). split; [now apply (whole_becomes m m' _ v _ (fused d q) G S)|].
  intros jx Hj. destruct (fuse_axis d a v jx 0 W N1 N2 H La Hj) as [Hj' Ei]. fold q in Hj', Ei. rewrite <- Ei, E by assumption. rewrite lower_nth by assumption. f_equal. apply map_ext_in. intros i Hi. apply in_zrange in Hi.
  destruct (fuse_axis d a v jx i W N1 N2 H La Hj) as [_ Ej]. fold q in Ej. rewrite Ej. assert (Hx : in_range (ins a i jx) (vdims v)) by now apply in_range_ins_del. destruct (I _ Hx) as [I1 I2].
  rewrite (shows_elem0 m _ _ _ _ S I1). now rewrite I2.
Qed.

Definition red_ready (k a : nat) (v : view) m : Prop :=
  vwf v /\ length (vdims v) = (3 + k)%nat /\ (a < 4)%nat /\ (a < 3 + k)%nat /\ distinct_cells v /\ readable m v /\ joined_except a v /\ (a = 0%nat \/ a = (2 + k)%nat -> rowm v).
Lemma ready_fuse k a d v m : red_ready (S k) a v m -> (S d < length (vdims v))%nat -> a <> d -> a <> S d -> (lower a d < 3 + k)%nat -> (lower a d = 0%nat -> a = 0%nat) -> (lower a d = (2 + k)%nat -> a = (3 + k)%nat) ->
  red_ready k (lower a d) (hv_fuse d v) m.
Proof.
  intros (W & L & A1 & A2 & Hd & Rv & J & Hr) H N1 N2 L1 L2 L3. assert (Jd : joined v d) by (apply J; lia). destruct (fuse_shows d v W H Jd) as (Wf & _ & S & I). pose proof (merge_length Z.mul d (vdims v) H) as M.
  split; [exact Wf|]. split; [rewrite fuse_dims; lia|]. split; [unfold lower; destruct (Nat.ltb_spec a d); lia|]. split; [assumption|]. split; [now apply fuse_distinct|]. split; [now apply (shows_readable m _ v _ S)|].
  split; [now apply fuse_joined|]. intros [Q|Q]; apply fuse_rowm; try assumption; apply Hr; [left|right]; [now apply L2|]. rewrite L3 by assumption. lia.
Qed.
Lemma three (l : list Z) : length l = 3%nat -> exists a b c, l = [a; b; c].
Proof. destruct l as [|a [|b [|c [|? ?]]]]; try discriminate. now exists a, b, c. Qed.
(* the reductions fuse the other axes until three are left *)
Lemma hreduce_gen (g : list R -> R) (P : Z -> Prop) (Q : nat -> nat -> Prop) :
  (forall v m n0 n1 n2, red_ready 0 0 v m -> vdims v = [n0; n1; n2] -> Q 0%nat 0%nat -> P n0 -> exists m', rv3_reduce0 v m = Ok m' /\ red g 0 v m m') ->
  (forall v m n0 n1 n2, red_ready 0 1 v m -> vdims v = [n0; n1; n2] -> Q 0%nat 1%nat -> P n1 -> exists m', rv3_reduce1 v m = Ok m' /\ red g 1 v m m') ->
  (forall v m n0 n1 n2, red_ready 0 2 v m -> vdims v = [n0; n1; n2] -> Q 0%nat 2%nat -> P n2 -> exists m', rv3_reduce2 v m = Ok m' /\ red g 2 v m m') ->
  (forall k, Q (S k) 0%nat -> Q k 0%nat) -> (forall k, Q (S k) 1%nat -> Q k 1%nat) -> (forall k, Q (S k) 2%nat -> Q k 1%nat) -> (forall k, Q (S k) 3%nat -> Q k 2%nat) ->
  forall k a v m, red_ready k a v m -> Q k a -> P (nth a (vdims v) 0) -> exists m', hv_reduce k a v m = Ok m' /\ red g a v m m'.
Proof.
  intros H0 H1 H2 Q0 Q1 Q2 Q3. induction k as [|k IH]; intros a v m Hv HQ HP.
  - pose proof Hv as (W & L & A1 & A2 & _). destruct (three _ L) as (n0 & n1 & n2 & D). rewrite D in HP. destruct a as [|[|[|a]]]; [| | |lia]; cbn [nth] in HP; cbn [hv_reduce].
    + now apply (H0 v m n0 n1 n2).
    + now apply (H1 v m n0 n1 n2).
    + now apply (H2 v m n0 n1 n2).
  - pose proof Hv as (W & L & A1 & A2 & Hd & Rv & J & Hr).
    assert (Go : forall a d, (a < 4)%nat -> red_ready (S k) a v m -> P (nth a (vdims v) 0) -> Q k (lower a d) -> (S d < length (vdims v))%nat -> a <> d -> a <> S d -> (lower a d < 3 + k)%nat -> (lower a d = 0%nat -> a = 0%nat) -> (lower a d = (2 + k)%nat -> a = (3 + k)%nat) ->
      exists m', hv_reduce k (lower a d) (hv_fuse d v) m = Ok m' /\ red g a v m m').
    { clear a HQ HP A1 A2 J Hr Hv. intros a d Ha Hv HP HQ H N1 N2 L1 L2 L3. pose proof Hv as (_ & _ & _ & A2 & _ & _ & J & _).
      destruct (IH (lower a d) (hv_fuse d v) m) as (m' & E & Hm); [now apply ready_fuse|assumption|now rewrite lower_nth|]. exists m'. split; [exact E|]. apply (red_fuse g a d); try assumption; [lia|]. apply J; lia. }
    destruct a as [|[|[|[|a]]]]; [| | | |lia]; cbn [hv_reduce].
    + apply (Go 0%nat 1%nat); unfold lower; cbn; try lia; auto.
    + apply (Go 1%nat 2%nat); unfold lower; cbn; try lia; auto.
    + apply (Go 2%nat 0%nat); unfold lower; cbn; try lia; auto.
    + apply (Go 3%nat 0%nat); unfold lower; cbn; try lia; auto.
Qed.
End Ring.
