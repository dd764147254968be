(* The product of two block sparse matrices: its blocks hold the blocks of the matrix product. *)
From Coq Require Import ZArith List Bool Lia Permutation.
Import ListNotations.
From Verif Require Import Base BaseFacts Map Model_Containers Proofs_Containers Proofs_Containers2 Proofs_Containers4 Model_Index Model_View Model_Tensor
  Spec_Index Spec_View Spec_Tensor Proofs_Index Proofs_View Proofs_View2 Proofs_Tensor Proofs_Tensor2 Proofs_Tensor3 Model_Ops Model_Gather Proofs_Gather Model_Block Spec_Block Proofs_Block Proofs_Block2 Model_BlockMul Proofs_BlockMul.
Open Scope Z_scope.

Lemma addr_merge b T n C t a c : vaddr (fresh_view b [T; n; C]) [t; a; c] = vaddr (fresh_view b [T * n; C]) [t * n + a; c].
Proof. rewrite !vaddr_ok by reflexivity. cbn [fresh_view vblk voff vstr strides_of dot]. do 2 f_equal. cbn -[Z.mul Z.add]. ring. Qed.
Lemma fresh_disjoint b b' ds ds' : b <> b' -> disjoint_views (fresh_view b ds) (fresh_view b' ds').
Proof.
  intros Hb ix jx Hi Hj E. rewrite !vaddr_ok in E. 2,3: cbn [fresh_view vstr vdims] in *; rewrite strides_of_length; now apply in_range_length. injection E as E1 _. now apply Hb.
Qed.
Lemma fresh_wf b ds : nonneg ds -> vwf (fresh_view b ds).
Proof. intro H. split; [cbn; apply strides_of_length|exact H]. Qed.

Section Mul.
Context {R : cring}.
Notation memR := (mem (car R)).
Add Ring Rbm2 : (cth R).
Variables (nA mA bn bm bA : Z) (ma : list (Z * Z)) (nB mB C bB : Z) (mb : list (Z * Z)) (un um ubn ubm b : Z).
Hypothesis Hbn : 0 < bn. Hypothesis Hbm : 0 < bm. Hypothesis HC : 0 < C.
Hypothesis HA : Forall (fun p => 0 <= fst p < nA /\ 0 <= snd p < mA) ma.
Hypothesis HB : Forall (fun p => 0 <= fst p < nB /\ 0 <= snd p < mB) mb.
Hypothesis HnA : 0 <= nA. Hypothesis HmA : 0 <= mA. Hypothesis HnB : 0 <= nB. Hypothesis HmB : 0 <= mB.
Hypothesis NbA : bA <> b. Hypothesis NbB : bB <> b.
Let A := bc_make nA mA bn bm ma bA.
Let B := bc_make nB mB bm C mb bB.
Let P := bc_mul_pairs A B.
Let T := zlen P.
Let V := fresh_view b [T; bn; C].
Let D := BCM un um ubn ubm V (fst (offsets_of P)).
Let WA := walk (otab ma). Let WB := walk (otabc mb).
Let offz i k := match mom_find i k (otab P) with Some t => t | None => 0 end.
Definition mul_calls := flat_map (fun p1 => flat_map (fun p2 => flat_map (fun q1 : Z * Z => match mfind (fst q1) (snd p2) with Some u => [(offz (fst p1) (fst p2), snd q1, u)] | None => [] end) (snd p1)) WB) WA.
Definition mul_step (c : Z * Z * Z) (m : memR) : res memR :=
  do r <- slice 0 (fst (fst c)) V; do x <- slice 0 (snd (fst c)) (bmx A); do y <- slice 0 (snd c) (bmx B); tv_add_mprod r x y m.

Lemma A_made : made_from A ma.
Proof. exists nA, mA, bn, bm, bA. auto 10. Qed.
Lemma B_made : made_from B mb.
Proof. exists nB, mB, bm, C, bB. auto 10. Qed.
Lemma T_nonneg : 0 <= T.
Proof. apply zlen_nonneg. Qed.
Lemma leaf i row k col j ta u : In (i, row) WA -> In (k, col) WB -> In (j, ta) row -> mfind j col = Some u ->
  mom_find i j (otab ma) = Some ta /\ mom_find j k (otab mb) = Some u.
Proof.
  intros Hi Hk Hj Hu. pose proof (walk_wf _ (proj1 (otab_wf ma))) as Wwa. pose proof (walk_wf _ (otabc_wf mb)) as Wwb. fold WA in Wwa. fold WB in Wwb.
  apply mfind_iff in Hi; [|apply Wwa]. apply mfind_iff in Hk; [|apply Wwb]. split.
  - rewrite <- (walk_get (otab ma)) by apply otab_wf. fold WA. unfold mom_find, mom_row. rewrite Hi. apply mfind_iff; [now apply (proj2 Wwa i)|exact Hj].
  - rewrite <- otabc_find, <- (walk_get (otabc mb)) by apply otabc_wf. fold WB. unfold mom_find, mom_row. now rewrite Hk.
Qed.
Lemma found i j k ta u : mom_find i j (otab ma) = Some ta -> mom_find j k (otab mb) = Some u ->
  In (i, j) ma /\ In (j, k) mb /\ 0 <= ta < zlen ma /\ 0 <= u < zlen mb /\ exists t, mom_find i k (otab P) = Some t /\ 0 <= t < T.
Proof.
  intros Ea Eb. apply otab_some in Ea as [Ta Ea]. apply otab_some in Eb as [Tb Eb]. apply nth_error_In in Ea, Eb. split; [exact Ea|]. split; [exact Eb|]. split; [exact Ta|]. split; [exact Tb|].
  destruct (mom_find i k (otab P)) as [t|] eqn:E.
  - exists t. split; [reflexivity|]. now apply otab_some in E as [E _].
  - apply otab_none in E. exfalso. apply E. apply (pairs_in A B ma mb A_made B_made). now exists j.
Qed.
Lemma call_in t ta u : In (t, ta, u) mul_calls -> exists i j k, mom_find i j (otab ma) = Some ta /\ mom_find j k (otab mb) = Some u /\ mom_find i k (otab P) = Some t /\ 0 <= ta < zlen ma /\ 0 <= u < zlen mb /\ 0 <= t < T.
Proof.
  unfold mul_calls. intro H. apply in_flat_map in H as ([i row] & Hi & H). apply in_flat_map in H as ([k col] & Hk & H). apply in_flat_map in H as ([j ta'] & Hj & H). cbn [fst snd] in H.
  destruct (mfind j col) as [u'|] eqn:E; [|destruct H]. destruct H as [H|[]]. destruct (leaf i row k col j ta' u' Hi Hk Hj E) as [E1 E2]. destruct (found _ _ _ _ _ E1 E2) as (_ & _ & B1 & B2 & t' & Et & Bt). unfold offz in H. rewrite Et in H. injection H as -> -> ->. exists i, j, k. auto 10.
Qed.

Lemma step_eq i j k ta u t (m : memR) : mom_find i j (otab ma) = Some ta -> mom_find j k (otab mb) = Some u -> mom_find i k (otab P) = Some t -> i < un -> k < um ->
  bc_mul_step D A B i j k m = mul_step (t, ta, u) m.
Proof.
  intros Ea Eb Et Hi Hk. destruct (found _ _ _ _ _ Ea Eb) as (Ia & Ib & _). rewrite Forall_forall in HA, HB. specialize (HA _ Ia). specialize (HB _ Ib). cbn in HA, HB.
  unfold bc_mul_step, mul_step, bc_block. rewrite !bc_offset_find. change (Model_Containers.rmap (boffs D)) with (otab P). change (Model_Containers.rmap (boffs A)) with (otab ma). change (Model_Containers.rmap (boffs B)) with (otab mb).
  rewrite Ea, Eb, Et. cbn [bnb bmb bmx D A B bc_make fst snd bind].
  replace (i <? un) with true by lia. replace (k <? um) with true by lia. replace (i <? nA) with true by lia. replace (j <? mA) with true by lia. replace (j <? nB) with true by lia. replace (k <? mB) with true by lia. reflexivity.
Qed.
Lemma loop_eq (m : memR) : (forall i j k, In (i, j) ma -> In (j, k) mb -> i < un /\ k < um) ->
  foldM (fun p1 => foldM (fun p2 => foldM (fun q1 m =>
    match mfind (fst q1) (snd p2) with Some _ => bc_mul_step D A B (fst p1) (fst q1) (fst p2) m | None => Ok m end) (snd p1)) WB) WA m = foldM mul_step mul_calls m.
Proof.
  intro Hu. unfold mul_calls. rewrite foldM_flat_map. apply foldM_ext. intros [i row] m1 Hi. rewrite foldM_flat_map. apply foldM_ext. intros [k col] m2 Hk. rewrite foldM_flat_map. apply foldM_ext. intros [j ta] m3 Hj. cbn [fst snd] in *.
  destruct (mfind j col) as [u|] eqn:E; [|reflexivity]. destruct (leaf i row k col j ta u Hi Hk Hj E) as [E1 E2]. destruct (found _ _ _ _ _ E1 E2) as (Ia & Ib & _ & _ & t & Et & _). destruct (Hu i j k Ia Ib) as [H1 H2].
  rewrite (step_eq i j k ta u t m3 E1 E2 Et H1 H2). unfold offz. rewrite Et. cbn [foldM]. destruct (mul_step (t, ta, u) m3); reflexivity.
Qed.

Let r2 := fresh_view b [T * bn; C].
Let x2 := fresh_view bB [zlen mb * bm; C].
Lemma nn2 n c : 0 <= n -> 0 <= c -> nonneg [n; c].
Proof. intros. repeat constructor; assumption. Qed.
Lemma loop_ok (m0 : memR) : readable m0 r2 -> readable m0 x2 -> readable m0 (bmx A) ->
  exists m', foldM mul_step mul_calls m0 = Ok m' /\ untouched m0 m' r2 /\
    forall I e, 0 <= I < T * bn -> 0 <= e < C -> elem m' r2 [I; e] = Some (cadd (elem0 m0 r2 [I; e])
      (rsum (map (fun c => if fst (fst c) =? I / bn then rsum (map (fun k => cmul (elem0 m0 (bmx A) [snd (fst c); I mod bn; k]) (elem0 m0 x2 [snd c * bm + k; e])) (zrange bm)) else c0) mul_calls))).
Proof.
  intros Rr Rx Rm. pose proof T_nonneg as HT. pose proof (zlen_nonneg mb) as Hb. pose proof (zlen_nonneg ma) as Ha.
  assert (N2 : nonneg [T * bn; C]) by (apply nn2; nia). assert (Nx : nonneg [zlen mb * bm; C]) by (apply nn2; nia).
  assert (Wm : vwf (bmx A)) by (apply fresh_wf; unfold zlen in *; repeat constructor; lia).
  assert (Wb : vwf (bmx B)) by (apply fresh_wf; unfold zlen in *; repeat constructor; lia).
  assert (Wv : vwf V) by (apply fresh_wf; repeat constructor; lia).
  assert (Dx : disjoint_views r2 x2) by (apply fresh_disjoint; congruence).
  assert (Dm : disjoint_views r2 (bmx A)) by (apply fresh_disjoint; congruence).
  destruct (blocks_ok r2 x2 (bmx A) (T * bn) C (zlen mb * bm) eq_refl eq_refl Dx Dm bn bm (fun c => fst (fst c) * bn) (fun c => snd c * bm) (fun c a k => [snd (fst c); a; k]) mul_step mul_calls m0) as (m' & E & U & W); try assumption; try lia.
  - intros [[t ta] u] a k Hin Hx Hk. destruct (call_in _ _ _ Hin) as (i & j & k' & _ & _ & _ & B1 & B2 & B3). cbn [fst snd]. unfold zlen in B1. repeat constructor; lia.
  - intros [[t ta] u] Hin. destruct (call_in _ _ _ Hin) as (i & j & k' & _ & _ & _ & B1 & B2 & B3). cbn [fst snd]. nia.
  - intros [[t ta] u] m1 Hin Rr1 Rx1 Rm1. destruct (call_in _ _ _ Hin) as (i & j & k' & _ & _ & _ & B1 & B2 & B3). unfold mul_step. cbn [fst snd].
    destruct (slice0_ok V t _ _ _ Wv eq_refl) as (rr & Err & Wrr & Drr & Arr). rewrite Err. cbn [bind].
    destruct (slice0_ok (bmx A) ta _ _ _ Wm eq_refl) as (bv & Eb & Wbv & Db & Ab). rewrite Eb. cbn [bind].
    destruct (slice0_ok (bmx B) u _ _ _ Wb eq_refl) as (xx & Exx & Wxx & Dxx & Axx). rewrite Exx. cbn [bind].
    destruct (mp_step r2 x2 (bmx A) (T * bn) C (zlen mb * bm) eq_refl eq_refl (proj2 (fresh_inside b _ N2)) Dx Dm rr bv xx bn bm (t * bn) (u * bm) m1) as (m2 & E2 & U2 & V2 & V3); try assumption; try lia; try nia.
    + intros a c. rewrite Arr. apply addr_merge.
    + intros a c. rewrite Axx. apply addr_merge.
    + intros a k Ha' Hk. exists [ta; a; k]. split; [unfold zlen in B1; repeat constructor; lia|apply Ab].
    + exists m2. split; [exact E2|]. split; [exact U2|]. split; [|exact V3]. intros a e Ha' He. rewrite V2 by assumption. f_equal. f_equal. apply rsum_ext. intros k _. f_equal. unfold elem0, elem. now rewrite Ab.
  - exists m'. split; [exact E|]. split; [exact U|]. intros I e HI He. rewrite W by assumption. f_equal. f_equal. apply rsum_ext. intros [[t ta] u] Hin. cbn [fst snd].
    destruct (block_sel t bn T I Hbn) as [-> _]. destruct (Z.eqb_spec t (I / bn)) as [-> |]; [|reflexivity]. apply rsum_ext. intros k _. do 3 f_equal. f_equal. rewrite (Z.mod_eq I bn) by lia. lia.
Qed.

Lemma step_keeps t ta u (m1 : memR) : 0 <= t < T -> 0 <= ta < zlen ma -> 0 <= u < zlen mb -> readable m1 r2 -> readable m1 x2 -> readable m1 (bmx A) ->
  exists m2, mul_step (t, ta, u) m1 = Ok m2 /\ readable m2 r2 /\ readable m2 x2 /\ readable m2 (bmx A).
Proof.
  intros B3 B1 B2 Rr1 Rx1 Rm1. pose proof T_nonneg as HT. pose proof (zlen_nonneg mb) as Hb. pose proof (zlen_nonneg ma) as Ha.
  assert (N2 : nonneg [T * bn; C]) by (apply nn2; nia).
  assert (Wm : vwf (bmx A)) by (apply fresh_wf; unfold zlen in *; repeat constructor; lia).
  assert (Wb : vwf (bmx B)) by (apply fresh_wf; unfold zlen in *; repeat constructor; lia).
  assert (Wv : vwf V) by (apply fresh_wf; repeat constructor; lia).
  assert (Dx : disjoint_views r2 x2) by (apply fresh_disjoint; congruence).
  assert (Dm : disjoint_views r2 (bmx A)) by (apply fresh_disjoint; congruence).
  unfold mul_step. cbn [fst snd].
  destruct (slice0_ok V t _ _ _ Wv eq_refl) as (rr & Err & Wrr & Drr & Arr). rewrite Err. cbn [bind].
  destruct (slice0_ok (bmx A) ta _ _ _ Wm eq_refl) as (bv & Eb & Wbv & Db & Ab). rewrite Eb. cbn [bind].
  destruct (slice0_ok (bmx B) u _ _ _ Wb eq_refl) as (xx & Exx & Wxx & Dxx & Axx). rewrite Exx. cbn [bind].
  destruct (mp_step r2 x2 (bmx A) (T * bn) C (zlen mb * bm) eq_refl eq_refl (proj2 (fresh_inside b _ N2)) Dx Dm rr bv xx bn bm (t * bn) (u * bm) m1) as (m2 & E2 & U2 & V2 & V3); try assumption; try lia; try nia.
  - intros a c. rewrite Arr. apply addr_merge.
  - intros a c. rewrite Axx. apply addr_merge.
  - intros a k Ha' Hk. exists [ta; a; k]. split; [unfold zlen in B1; repeat constructor; lia|apply Ab].
  - exists m2. split; [exact E2|]. split; [|split; [now apply (keep_readable r2 x2 m1 m2)|now apply (keep_readable r2 (bmx A) m1 m2)]].
    intros ix Hix. pose proof Hix as Hix'. apply in_range_2_inv in Hix as (I & e & -> & HI & He). destruct (Z_le_gt_dec (t * bn) I) as [L|L]; [destruct (Z_lt_le_dec I (t * bn + bn)) as [L2|L2]|].
    + replace I with (t * bn + (I - t * bn)) by lia. rewrite V2 by lia. discriminate.
    + rewrite V3 by lia. now apply Rr1.
    + rewrite V3 by lia. now apply Rr1.
Qed.

(* the sum over the calls that add to block (i,k) *)
Lemma calls_sum i k t (F : Z -> Z -> R) : mom_find i k (otab P) = Some t ->
  rsum (map (fun c => if fst (fst c) =? t then F (snd (fst c)) (snd c) else c0) mul_calls) =
  rsum (map (fun j => match mom_find i j (otab ma), mom_find j k (otab mb) with Some ta, Some u => F ta u | _, _ => c0 end) (zrange mA)).
Proof.
  intro Et. pose proof (proj1 (otab_wf ma)) as Wa. pose proof (otabc_wf mb) as Wb. pose proof (walk_wf _ Wa) as Wwa. pose proof (walk_wf _ Wb) as Wwb. fold WA in Wwa. fold WB in Wwb.
  set (G := fun (row col : zmap Z) => rsum (map (fun q : Z * Z => match mfind (fst q) col with Some u => F (snd q) u | None => c0 end) row) : R).
  transitivity (rsum (map (fun p1 => if fst p1 =? i then (fun row => rsum (map (fun p2 => if fst p2 =? k then (fun col => G row col) (snd p2) else c0) WB)) (snd p1) else c0) WA)).
  - unfold mul_calls. rewrite rsum_flat_map. apply rsum_ext. intros [i' row] Hi. cbn [fst snd]. rewrite rsum_flat_map.
    transitivity (rsum (map (fun p2 : Z * zmap Z => if (i' =? i) && (fst p2 =? k) then G row (snd p2) else c0) WB)).
    + apply rsum_ext. intros [k' col] Hk. cbn [fst snd]. rewrite rsum_flat_map.
      transitivity (rsum (map (fun q : Z * Z => if (i' =? i) && (k' =? k) then match mfind (fst q) col with Some u => F (snd q) u | None => c0 end else c0) row)).
      * apply rsum_ext. intros [j ta] Hj. cbn [fst snd]. destruct (mfind j col) as [u|] eqn:E; [|now destruct (_ && _)].
        destruct (leaf i' row k' col j ta u Hi Hk Hj E) as [E1 E2]. destruct (found _ _ _ _ _ E1 E2) as (_ & _ & _ & _ & t' & Et' & Bt). unfold offz. rewrite Et'. cbn [map fst snd]. rewrite rsum_one.
        destruct (Z.eqb_spec t' t) as [->|Hne].
        -- apply otab_some in Et as [_ Et]. apply otab_some in Et' as [_ Et']. rewrite Et in Et'. injection Et' as -> ->. now rewrite !Z.eqb_refl.
        -- destruct (Z.eqb_spec i' i) as [->|]; [|reflexivity]. destruct (Z.eqb_spec k' k) as [->|]; [|reflexivity]. congruence.
      * destruct ((i' =? i) && (k' =? k)); [reflexivity|]. now apply rsum_zero.
    + destruct (i' =? i); [reflexivity|]. now apply rsum_zero.
  - rewrite (rsum_key WA i (fun row => rsum (map (fun p2 => if fst p2 =? k then (fun col => G row col) (snd p2) else c0) WB))) by apply Wwa.
    assert (Ra : forall j, mom_find i j (otab ma) = match mfind i WA with Some row => mfind j row | None => None end).
    { intro j. rewrite <- walk_get by assumption. fold WA. unfold mom_find, mom_row. destruct (mfind i WA); reflexivity. }
    assert (Rb : forall j, mom_find j k (otab mb) = match mfind k WB with Some col => mfind j col | None => None end).
    { intro j. rewrite <- otabc_find, <- (walk_get (otabc mb)) by assumption. fold WB. unfold mom_find, mom_row. destruct (mfind k WB); reflexivity. }
    destruct (mfind i WA) as [row|] eqn:Er.
    + rewrite (rsum_key WB k (fun col => G row col)) by apply Wwb. destruct (mfind k WB) as [col|] eqn:Ec.
      * unfold G. rewrite (rsum_row row mA (fun j ta => match mfind j col with Some u => F ta u | None => c0 end)).
        -- apply rsum_ext. intros j _. rewrite Ra, Rb. destruct (mfind j row); [|reflexivity]. destruct (mfind j col); reflexivity.
        -- now apply (proj2 Wwa i).
        -- intros j Hj. apply in_map_iff in Hj as ([j' ta] & <- & Hj). cbn. apply mfind_iff in Hj; [|now apply (proj2 Wwa i)]. rewrite <- Ra in Hj. apply otab_some in Hj as [_ Hj]. apply nth_error_In in Hj. rewrite Forall_forall in HA. specialize (HA _ Hj). cbn in HA. lia.
      * symmetry. apply rsum_zero. intros j _. rewrite Rb. now destruct (mom_find i j (otab ma)).
    + symmetry. apply rsum_zero. intros j _. now rewrite Ra.
Qed.
End Mul.
