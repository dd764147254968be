From Verif Require Import Base BaseFacts Map Model_Index Model_View Model_Tensor Model_Containers Model_Gather Model_Gather2
  Spec_Index Spec_View Spec_Tensor Spec_Gather Proofs_Axes Proofs_Index Proofs_Tensor Accum Proofs_Gather Proofs_Gather2.
Local Open Scope Z_scope.

(* insert and remove a coordinate *)
Lemma vremove_ok {A} d (l : list A) : 0 <= d < Z.of_nat (length l) -> vremove d l = Ok (rm (Z.to_nat d) l).
Proof. intro H. unfold vremove. replace (0 <=? d) with true by lia. replace (_ <? _) with true by lia. reflexivity. Qed.
Lemma ins_0 {A} (a : A) l : ins 0 a l = a :: l. Proof. reflexivity. Qed.
Lemma ins_S {A} d (a b : A) l : ins (S d) a (b :: l) = b :: ins d a l. Proof. reflexivity. Qed.
Lemma rm_S {A} d (b : A) l : rm (S d) (b :: l) = b :: rm d l. Proof. reflexivity. Qed.
Lemma rm_length {A} d (l : list A) : (d < length l)%nat -> length (rm d l) = (length l - 1)%nat.
Proof. intro H. unfold rm. rewrite app_length, firstn_length, skipn_length. lia. Qed.
Lemma dot_ins d : forall s i ix, (d < length s)%nat -> length ix = (length s - 1)%nat -> dot s (ins d i ix) = i * nth d s 0 + dot (rm d s) ix.
Proof.
  induction d as [|d IH]; intros [|a s] i ix Hd L; cbn [length] in *; try lia.
  - rewrite ins_0. unfold rm. cbn. ring.
  - destruct ix as [|b ix]; [cbn in L; lia|]. rewrite ins_S, rm_S. cbn [dot nth]. rewrite IH by (cbn in L; lia). ring.
Qed.
Lemma in_range_ins d : forall dims i ix, (d < length dims)%nat -> (in_range (ins d i ix) dims <-> 0 <= i < nth d dims 0 /\ in_range ix (rm d dims)).
Proof.
  induction d as [|d IH]; intros [|a dims] i ix Hd; cbn [length] in *; try lia.
  - rewrite ins_0. unfold rm. cbn. split; [intro H; inversion H; subst; auto|intros [H1 H2]; constructor; auto].
  - destruct ix as [|b ix].
    + rewrite rm_S. split; [|intros [_ H]; inversion H]. unfold ins. cbn. intro H. exfalso. apply in_range_length in H. cbn in H.
      destruct d; cbn in *; lia.
    + rewrite ins_S, rm_S. cbn [nth]. split.
      * intro H. inversion H; subst. apply IH in H5; [|lia]. destruct H5. split; [assumption|]. constructor; assumption.
      * intros [H1 H2]. inversion H2; subst. constructor; [assumption|]. apply IH; [lia|]. auto.
Qed.
Lemma ins_inj {A} d (a b : A) l l' : (d <= length l)%nat -> length l = length l' -> ins d a l = ins d b l' -> a = b /\ l = l'.
Proof.
  revert l l'. induction d as [|d IH]; intros l l' Hd L E.
  - rewrite !ins_0 in E. injection E. auto.
  - destruct l as [|x l], l' as [|y l']; cbn [length] in *; try lia. rewrite !ins_S in E. injection E as -> E. destruct (IH l l' ltac:(lia) ltac:(lia) E). subst. auto.
Qed.

Section S3.
Context {R : cring}.
Add Ring RrG3 : (cth R).
Notation memR := (mem (car R)).
Lemma pairs_ok (L : list (addr * addr)) (m : memR) :
  (forall a, In a L -> at_ m (fst a) <> None /\ at_ m (snd a) <> None) -> (forall a b, In a L -> In b L -> fst a <> snd b) ->
  exists m', foldM (fun a => rmw f_add1 (fst a) [snd a]) L m = Ok m' /\ plus_on (added fst (fun a => val0 m (snd a)) L) m m'.
Proof. apply accum_copy_ok. Qed.
Definition offpairs (rs xs dims : list Z) : list (Z * Z) := map (fun ix => (dot rs ix, dot xs ix)) (all_indices dims).
Definition slpairs (r x : view) (rs0 xs0 : Z) (N : list (Z * Z)) (es : list (Z * Z)) : list (addr * addr) :=
  flat_map (fun e => map (fun o => ((vblk r, voff r + fst e * rs0 + fst o), (vblk x, voff x + snd e * xs0 + snd o))) N) es.
Lemma slice_loop_ok r x dims rs xs rs0 xs0 p qs (m : memR) : length rs = length dims -> length xs = length dims -> rd p qs ->
  gm_for_each p (fun i j => slice_add r x dims rs xs rs0 xs0 i j) m =
  foldM (fun a => rmw f_add1 (fst a) [snd a]) (slpairs r x rs0 xs0 (offpairs rs xs dims) (mol_calls qs)) m.
Proof.
  intros L1 L2 H. rewrite (for_each_ok _ _ _ _ H). unfold slpairs. rewrite foldM_flat_map. apply foldM_ext. intros e m0 _.
  unfold slice_add. rewrite loops2_run by assumption. unfold run, offpairs. rewrite !map_map, !foldM_map. apply foldM_ext. intros ix m1 _. reflexivity.
Qed.
(* the pairs of cells for the entries es, in terms of indices *)
Definition slist (r x : view) (o n : nat) (es : list (Z * Z)) : list (addr * addr) :=
  flat_map (fun e => map (fun ix => (cell r (ins o (fst e) ix), cell x (ins n (snd e) ix))) (all_indices (rm o (vdims r)))) es.
Lemma slpairs_cells r x o n es : vwf r -> vwf x -> (o < length (vdims r))%nat -> (n < length (vdims x))%nat -> rm o (vdims r) = rm n (vdims x) ->
  slpairs r x (nth o (vstr r) 0) (nth n (vstr x) 0) (offpairs (rm o (vstr r)) (rm n (vstr x)) (rm o (vdims r))) es = slist r x o n es.
Proof.
  intros [Lr _] [Lx _] Ho Hn E. unfold slpairs, slist, offpairs. apply flat_map_ext_in. intros e _. rewrite map_map. apply map_ext_in. intros ix Hix.
  apply in_all_indices, in_range_length in Hix. assert (Hix' := Hix). rewrite E in Hix'. rewrite rm_length in Hix, Hix' by assumption.
  unfold cell. rewrite !dot_ins by lia. cbn [fst snd]. rewrite !Z.add_assoc. reflexivity.
Qed.
Lemma elem0_val (m : memR) v ix : length (vstr v) = length (vdims v) -> in_range ix (vdims v) -> elem0 m v ix = val0 m (cell v ix).
Proof. intros L H. unfold elem0, val0. now rewrite (elem_cell m v ix L H). Qed.
Lemma slist_ok (m : memR) r x o n es L : slices_pre m r x o n es -> Permutation L (slist r x o n es) ->
  exists m', foldM (fun a => rmw f_add1 (fst a) [snd a]) L m = Ok m' /\ slices_post m m' r x o n es.
Proof.
  intros (Wr & Wx & Ho & Hn & Ed & Di & Rr & Rx & Dj & Fe) P. rewrite Forall_forall in Fe.
  assert (In_ : forall a, In a L -> exists e ix, In e es /\ in_range ix (rm o (vdims r)) /\ in_range (ins o (fst e) ix) (vdims r) /\ in_range (ins n (snd e) ix) (vdims x) /\
     a = (cell r (ins o (fst e) ix), cell x (ins n (snd e) ix))).
  { intros a Ha. apply (Permutation_in _ P) in Ha. unfold slist in Ha. apply in_flat_map in Ha. destruct Ha as (e & He & Ha). apply in_map_iff in Ha. destruct Ha as (ix & <- & Hix).
    apply in_all_indices in Hix. exists e, ix. destruct (Fe e He). repeat split; auto; apply in_range_ins; auto. split; [assumption|]. now rewrite <- Ed. }
  destruct Wr as [Lr Nr], Wx as [Lx Nx].
  destruct (pairs_ok L m) as (m' & E & Pl).
  - intros a Ha. destruct (In_ a Ha) as (e & ix & _ & _ & H1 & H2 & ->). cbn [fst snd]. rewrite <- !elem_cell by assumption. auto.
  - intros a b Ha Hb. destruct (In_ a Ha) as (e & ix & _ & _ & H1 & _ & ->). destruct (In_ b Hb) as (e' & ix' & _ & _ & _ & H2 & ->). cbn [fst snd].
    intro Q. apply (Dj _ _ H1 H2). rewrite !vaddr_cell by assumption. now rewrite Q.
  - exists m'. split; [exact E|]. split.
    + intros i ix Hi Hix. assert (Hr : in_range (ins o i ix) (vdims r)) by (apply in_range_ins; auto).
      rewrite (elem_cell m' r _ Lr Hr), (elem0_val m r _ Lr Hr).
      rewrite (plus_at _ _ _ _ (val0 m (cell r (ins o i ix))) Pl); [|apply val0_at; rewrite <- elem_cell by assumption; now apply Rr]. do 2 f_equal.
      rewrite (added_perm _ _ _ _ _ P), added_if, filter_rsum. unfold slist. rewrite rsum_flat_map. apply rsum_ext. intros e He. rewrite map_map. cbn [fst snd].
      destruct (Fe e He) as [He1 He2]. destruct (fst e =? i) eqn:Ei.
      * assert (fst e = i) by lia. rewrite (rsum_single R _ _ ix); [|apply all_indices_nodup|now apply in_all_indices|].
        { rewrite H, aeqb_refl. symmetry. apply elem0_val; [assumption|]. apply in_range_ins; [assumption|]. split; [assumption|]. now rewrite <- Ed. }
        { intros jx Hjx Nj. apply in_all_indices in Hjx. destruct (aeqb _ _) eqn:Ea; [|reflexivity]. exfalso. apply aeqb_eq in Ea. rewrite H in Ea.
          assert (Hj : in_range (ins o i jx) (vdims r)) by (apply in_range_ins; auto).
          assert (Q : ins o i jx = ins o i ix) by (apply Di; auto; rewrite !vaddr_cell by assumption; now rewrite Ea).
          apply in_range_length in Hjx, Hix. rewrite rm_length in Hjx, Hix by assumption. apply ins_inj in Q; [destruct Q; auto|lia|lia]. }
      * apply rsum_zero. intros jx Hjx. apply in_all_indices in Hjx. destruct (aeqb _ _) eqn:Ea; [|reflexivity]. exfalso. apply aeqb_eq in Ea.
        assert (Hj : in_range (ins o (fst e) jx) (vdims r)) by (apply in_range_ins; auto).
        assert (Q : ins o (fst e) jx = ins o i ix) by (apply Di; auto; rewrite !vaddr_cell by assumption; now rewrite Ea).
        apply in_range_length in Hjx, Hix. rewrite rm_length in Hjx, Hix by assumption. apply ins_inj in Q; [destruct Q; lia|lia|lia].
    + intros b a Hb. change (at_ m' (b, a) = at_ m (b, a)). apply (plus_off _ _ _ _ Pl). apply added_off. intros q Hq Eq.
      destruct (In_ q Hq) as (e & ix & _ & _ & H1 & _ & ->). cbn [fst] in Eq. apply (Hb _ H1). rewrite vaddr_cell by assumption. now rewrite Eq.
Qed.
Lemma zget_some {A} (l : list A) i d : 0 <= i < Z.of_nat (length l) -> zget l i = Ok (nth (Z.to_nat i) l d).
Proof.
  intro H. unfold zget, vget. replace (i <? 0) with false by lia. destruct (nth_error l (Z.to_nat i)) eqn:E.
  - now rewrite (nth_error_nth _ _ _ E).
  - apply nth_error_None in E. lia.
Qed.
Lemma front_ok d v : vwf v -> 0 <= d < Z.of_nat (length (vdims v)) ->
  front d v = Ok (View (vblk v) (voff v) (nth (Z.to_nat d) (vdims v) 0 :: rm (Z.to_nat d) (vdims v)) (nth (Z.to_nat d) (vstr v) 0 :: rm (Z.to_nat d) (vstr v))).
Proof.
  intros [L _] H. unfold front. rewrite (zget_some (vdims v) d 0), (zget_some (vstr v) d 0), !vremove_ok by lia. reflexivity.
Qed.
Lemma naive_ok (m : memR) r x g qs in_dim out_dim : rd (garr g) qs -> (length (vdims r) < 5)%nat -> length (vdims x) = length (vdims r) ->
  0 <= in_dim -> 0 <= out_dim -> slices_pre m r x (Z.to_nat out_dim) (Z.to_nat in_dim) (mol_calls qs) ->
  exists m', gather_slices_naive r x g in_dim out_dim m = Ok m' /\ slices_post m m' r x (Z.to_nat out_dim) (Z.to_nat in_dim) (mol_calls qs).
Proof.
  intros H L5 Lxr Hi Hoo Pre. assert (Pre' := Pre). destruct Pre' as (Wr & Wx & Ho & Hn & Ed & _).
  unfold gather_slices_naive. replace (out_dim =? -1) with false by lia. unfold ndims. rewrite Lxr, Z.eqb_refl. replace (_ <? 5) with true by lia. cbn [assrt].
  rewrite !front_ok by (try assumption; lia). cbn [bind vdims vstr voff vblk]. rewrite <- Ed.
  assert (A : length (rm (Z.to_nat out_dim) (vstr r)) = length (rm (Z.to_nat out_dim) (vdims r))) by (destruct Wr as [Lr _]; rewrite !rm_length by lia; lia).
  assert (B : length (rm (Z.to_nat in_dim) (vstr x)) = length (rm (Z.to_nat out_dim) (vdims r))) by (rewrite Ed; destruct Wx as [Lx _]; rewrite !rm_length by lia; lia).
  rewrite (slice_loop_ok _ _ _ _ _ _ _ _ qs) by assumption. apply slist_ok; [assumption|].
  rewrite <- (slpairs_cells r x _ _ (mol_calls qs) Wr Wx Ho Hn Ed). reflexivity.
Qed.
End S3.
