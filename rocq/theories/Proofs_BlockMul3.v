(* The product of two block sparse matrices: the whole call. *)
From Coq Require Import ZArith List Bool Lia Permutation.
Import ListNotations.
From Verif Require Import Base BaseFacts Map Model_Containers Proofs_Containers Proofs_Containers2 Proofs_Containers4 Model_Index Model_View Model_Tensor
  Spec_Index Spec_View Spec_Tensor Proofs_Index Proofs_View Proofs_View2 Proofs_Tensor Proofs_Tensor2 Proofs_Tensor3 Model_Ops Model_Gather Proofs_Gather Model_Block Spec_Block Spec_BlockMul Proofs_Block Proofs_Block2 Model_BlockMul Proofs_BlockMul Proofs_BlockMul2.
Open Scope Z_scope.

Section Mul.
Context {R : cring}.
Notation memR := (mem (car R)).
Add Ring Rbm3 : (cth R).
Lemma pentry_blocks nA mA bn bm bA ma nB mB C bB mb (m : memR) i k a c : 0 < bn -> 0 < bm -> 0 < C -> 0 <= mA -> 0 <= a < bn -> 0 <= c < C ->
  pentry (bc_make nA mA bn bm ma bA) (bc_make nB mB bm C mb bB) m (i * bn + a) (k * C + c) =
  rsum (map (fun j => match mom_find i j (otab ma), mom_find j k (otab mb) with
     | Some ta, Some u => rsum (map (fun q => cmul (elem0 m (fresh_view bA [zlen ma; bn; bm]) [ta; a; q]) (elem0 m (fresh_view bB [zlen mb * bm; C]) [u * bm + q; c])) (zrange bm)) | _, _ => c0 end) (zrange mA)).
Proof.
  intros Hbn Hbm HC HmA Ha Hc. unfold pentry. cbn [bmb bbm bc_make]. rewrite zrange_mul by lia. rewrite rsum_flat_map. apply rsum_ext. intros j Hj. rewrite map_map.
  destruct (div_block i bn a Hbn Ha) as [Ai Am]. destruct (div_block k C c HC Hc) as [Ck Cm].
  assert (Eq : forall q, 0 <= q < bm -> bentry (bc_make nA mA bn bm ma bA) m (i * bn + a) (j * bm + q) = match mom_find i j (otab ma) with Some ta => elem0 m (fresh_view bA [zlen ma; bn; bm]) [ta; a; q] | None => c0 end).
  { intros q Hq. destruct (div_block j bm q Hbm Hq) as [D1 D2]. unfold bentry. cbn [bbn bbm bc_make bmx]. rewrite bc_offset_find, Ai, Am, D1, D2. change (Model_Containers.rmap (boffs _)) with (otab ma). now destruct (mom_find i j (otab ma)). }
  assert (Eu : forall q, 0 <= q < bm -> bentry (bc_make nB mB bm C mb bB) m (j * bm + q) (k * C + c) = match mom_find j k (otab mb) with Some u => elem0 m (fresh_view bB [zlen mb * bm; C]) [u * bm + q; c] | None => c0 end).
  { intros q Hq. destruct (div_block j bm q Hbm Hq) as [D1 D2]. unfold bentry. cbn [bbn bbm bc_make bmx]. rewrite bc_offset_find, Ck, Cm, D1, D2. change (Model_Containers.rmap (boffs _)) with (otab mb). destruct (mom_find j k (otab mb)); [|reflexivity]. unfold elem0, elem. change (Z.of_nat (length mb)) with (zlen mb). now rewrite addr_merge. }
  transitivity (rsum (map (fun q => cmul (match mom_find i j (otab ma) with Some ta => elem0 m (fresh_view bA [zlen ma; bn; bm]) [ta; a; q] | None => c0 end) (match mom_find j k (otab mb) with Some u => elem0 m (fresh_view bB [zlen mb * bm; C]) [u * bm + q; c] | None => c0 end)) (zrange bm))).
  { apply rsum_ext. intros q Hq. apply in_zrange in Hq. now rewrite Eq, Eu. }
  destruct (mom_find i j (otab ma)); [destruct (mom_find j k (otab mb)); [reflexivity|]|]; apply rsum_zero; intros q _; ring.
Qed.

Lemma mul_shape un um ubn ubm b A B (m : memR) :
  bc_mul un um ubn ubm b A B m =
  (do m <- foldM (fun p1 => foldM (fun p2 => foldM (fun q1 m =>
    match mfind (fst q1) (snd p2) with Some _ => bc_mul_step (BCM un um ubn ubm (fresh_view b [zlen (bc_mul_pairs A B); bbn A; bbm B]) (fst (offsets_of (bc_mul_pairs A B)))) A B (fst p1) (fst q1) (fst p2) m | None => Ok m end)
    (snd p1)) (walk (cmap (boffs B)))) (walk (Model_Containers.rmap (boffs A))) (alloc c0 b (asize [zlen (bc_mul_pairs A B); bbn A; bbm B]) m);
  Ok (BCM un um ubn ubm (fresh_view b [zlen (bc_mul_pairs A B); bbn A; bbm B]) (fst (offsets_of (bc_mul_pairs A B))), m)).
Proof.
  unfold bc_mul. pose proof (offsets_count (bc_mul_pairs A B)) as E. destruct (offsets_of (bc_mul_pairs A B)) as [o t]. cbn [snd fst] in *. subst t. reflexivity.
Qed.
Lemma elem0_alloc (z : R) b n (m : memR) b' ds ix : b' <> b -> elem0 (alloc z b n m) (fresh_view b' ds) ix = elem0 m (fresh_view b' ds) ix.
Proof.
  intro H. unfold elem0, elem. destruct (vaddr (fresh_view b' ds) ix) as [[x y]| |] eqn:E; [|reflexivity|reflexivity]. apply vaddr_blk in E. cbn in E. subst x. now rewrite alloc_other.
Qed.

Lemma fresh_block_zero b T bn C (m : memR) I e : 0 <= T -> 0 < bn -> 0 < C -> 0 <= I < T * bn -> 0 <= e < C -> elem (alloc c0 b (asize [T; bn; C]) m) (fresh_view b [T * bn; C]) [I; e] = Some c0.
Proof.
  intros HT Hbn HC HI He. pose proof (Z.div_mod I bn ltac:(lia)) as E. pose proof (Z.mod_pos_bound I bn Hbn) as M. destruct (block_sel 0 bn T I Hbn) as [_ Hdiv]. specialize (Hdiv HT HI).
  transitivity (elem (alloc c0 b (asize [T; bn; C]) m) (fresh_view b [T; bn; C]) [I / bn; I mod bn; e]).
  - unfold elem. rewrite addr_merge. replace (I / bn * bn + I mod bn) with I by lia. reflexivity.
  - apply fresh_readable; repeat constructor; lia.
Qed.
Lemma fresh_block_read b bB n (mb : list (Z * Z)) bm C (m : memR) : 0 < bm -> 0 < C -> bB <> b -> readable m (fresh_view bB [Z.of_nat (length mb); bm; C]) -> readable (alloc c0 b n m) (fresh_view bB [zlen mb * bm; C]).
Proof.
  intros Hbm HC NB RB ix Hix. apply in_range_2_inv in Hix as (I & e & -> & HI & He). pose proof (Z.div_mod I bm ltac:(lia)) as E. pose proof (Z.mod_pos_bound I bm Hbm) as M. destruct (block_sel 0 bm (zlen mb) I Hbm) as [_ Hdiv]. specialize (Hdiv (zlen_nonneg mb) HI).
  intro Hn. apply (RB [I / bm; I mod bm; e]); [cbn; unfold zlen in Hdiv; repeat constructor; lia|]. revert Hn. unfold elem. change (Z.of_nat (length mb)) with (zlen mb). rewrite addr_merge. replace (I / bm * bm + I mod bm) with I by lia.
  destruct (vaddr (fresh_view bB [zlen mb * bm; C]) [I; e]) as [[x y]| |] eqn:Ev; [|auto|auto]. apply vaddr_blk in Ev. cbn in Ev. subst x. now rewrite alloc_other.
Qed.

Lemma mul_ok un um ubn ubm b A B ma mb (m : memR) : made_from A ma -> made_from B mb -> bbm A = bbn B -> readable m (bmx A) -> readable m (bmx B) ->
  vblk (bmx A) <> b -> vblk (bmx B) <> b -> (forall i j k, In (i, j) ma -> In (j, k) mb -> i < un /\ k < um) ->
  exists D m', bc_mul un um ubn ubm b A B m = Ok (D, m') /\ (forall b' a, b' <> b -> m' b' a = m b' a) /\
    (forall i k, bc_is_filled D i k = true <-> exists j, In (i, j) ma /\ In (j, k) mb) /\
    (forall i k, bc_is_filled D i k = true -> exists v, bc_block D i k = Ok v /\ vdims v = [bbn A; bbm B] /\
       forall a c, 0 <= a < bbn A -> 0 <= c < bbm B -> elem m' v [a; c] = Some (pentry A B m (i * bbn A + a) (k * bbm B + c))) /\
    (forall i k a c, bc_is_filled D i k = false -> 0 <= a < bbn A -> 0 <= c < bbm B -> pentry A B m (i * bbn A + a) (k * bbm B + c) = c0).
Proof.
  intros MA MB. pose proof (pairs_in A B ma mb MA MB) as Pin. revert Pin.
  destruct MA as (nA & mA & bn & bm & bA & -> & Hbn & Hbm & HnA & HmA & HA). destruct MB as (nB & mB & bm' & C & bB & -> & Hbm' & HC & HnB & HmB & HB).
  cbn [bbn bbm bc_make]. intros Pin <- RA RB NA NB Hu. cbn [vblk bmx bc_make fresh_view] in NA, NB.
  rewrite mul_shape. set (A := bc_make nA mA bn bm ma bA) in *. set (B := bc_make nB mB bm C mb bB) in *. set (P := bc_mul_pairs A B) in *. cbn [bbn bbm bmb A B bc_make].
  set (D := BCM un um ubn ubm (fresh_view b [zlen P; bn; C]) (fst (offsets_of P))).
  set (m0 := alloc c0 b (asize [zlen P; bn; C]) m).
  pose proof (zlen_nonneg P) as HT.
  assert (NV : nonneg [zlen P; bn; C]) by (repeat constructor; lia).
  assert (El0 : forall I e, 0 <= I < zlen P * bn -> 0 <= e < C -> elem m0 (fresh_view b [zlen P * bn; C]) [I; e] = Some c0).
  { intros I e HI He. now apply fresh_block_zero. }
  pose proof (loop_eq nA mA bn bm bA ma nB mB C bB mb un um ubn ubm b Hbn Hbm HC HA HB HnA HmA HnB HmB m0 Hu) as LE.
  match type of LE with ?L = _ => match goal with |- context [foldM ?f ?l m0] => change (foldM f l m0) with L end end. rewrite LE. clear LE.
  destruct (loop_ok nA mA bn bm bA ma nB mB C bB mb b Hbn Hbm HC HA HB HnA HmA HnB HmB NA NB m0) as (m' & E & U & W).
  - intros ix Hix. apply in_range_2_inv in Hix as (I & e & -> & HI & He). change (bc_mul_pairs (bc_make nA mA bn bm ma bA) (bc_make nB mB bm C mb bB)) with P in *. rewrite El0 by assumption. discriminate.
  - now apply fresh_block_read.
  - intros ix Hix Hn. apply (RA ix Hix). revert Hn. unfold elem. cbn [bmx A bc_make]. destruct (vaddr (fresh_view bA [Z.of_nat (length ma); bn; bm]) ix) as [[x y]| |] eqn:Ev; [|auto|auto]. apply vaddr_blk in Ev. cbn in Ev. subst x. unfold m0. now rewrite alloc_other.
  - change (bc_mul_pairs (bc_make nA mA bn bm ma bA) (bc_make nB mB bm C mb bB)) with P in *. rewrite E. cbn [bind]. exists D, m'. split; [reflexivity|].
    assert (Fd : forall i k, bc_is_filled D i k = match mom_find i k (otab P) with Some _ => true | None => false end).
    { intros i k. unfold bc_is_filled, mom_find, mom_row. change (Model_Containers.rmap (boffs D)) with (otab P). destruct (mfind i (otab P)) as [r|]; reflexivity. }
    assert (Fi : forall i k, bc_is_filled D i k = true <-> exists j, In (i, j) ma /\ In (j, k) mb).
    { intros i k. rewrite <- Pin, Fd. pose proof (otab_none P i k) as N. destruct (mom_find i k (otab P)) as [t|] eqn:Et.
      - split; [|reflexivity]. intros _. apply otab_some in Et as [_ Et]. now apply nth_error_In in Et.
      - split; [discriminate|]. intro H. exfalso. now apply N. }
    split; [|split; [exact Fi|split]].
    + intros b' a Hb. rewrite U; [unfold m0; now apply alloc_other|]. intros ix Hix Ev. apply vaddr_blk in Ev. cbn in Ev. now subst.
    + intros i k Hf. pose proof Hf as Hf'. rewrite Fd in Hf. destruct (mom_find i k (otab P)) as [t|] eqn:Et; [|discriminate]. apply Fi in Hf' as (j & Ia & Ib). destruct (Hu i j k Ia Ib) as [Hi Hk].
      destruct (slice0_ok (fresh_view b [zlen P; bn; C]) t (zlen P) bn C (fresh_wf b _ NV) eq_refl) as (v & Ev & _ & Dv & Av). exists v. split; [|split; [exact Dv|]].
      * unfold bc_block. cbn [bnb bmb D bmx]. replace (i <? un) with true by lia. replace (k <? um) with true by lia. cbn [assrt]. rewrite bc_offset_find. change (Model_Containers.rmap (boffs D)) with (otab P). rewrite Et. exact Ev.
      * intros a c Ha Hc. pose proof (otab_some P i k t Et) as [Ht _]. unfold elem. rewrite Av, addr_merge. fold (elem m' (fresh_view b [zlen P * bn; C]) [t * bn + a; c]).
        rewrite W by nia. f_equal. unfold elem0 at 1. rewrite El0 by nia. destruct (div_block t bn a Hbn Ha) as [-> ->].
        fold A in W. fold A. rewrite (calls_sum nA mA bn bm bA ma nB mB C bB mb Hbn Hbm HC HA HB HnA HmA HnB HmB i k t (fun ta u => rsum (map (fun q => cmul (elem0 m0 (bmx A) [ta; a; q]) (elem0 m0 (fresh_view bB [zlen mb * bm; C]) [u * bm + q; c])) (zrange bm))) Et).
        unfold A, B. rewrite pentry_blocks by assumption.
        match goal with |- cadd c0 ?x = ?y => transitivity x; [ring|] end. apply rsum_ext. intros j' _. destruct (mom_find i j' (otab ma)) as [ta|]; [|reflexivity]. destruct (mom_find j' k (otab mb)) as [u|]; [|reflexivity].
        apply rsum_ext. intros q _. unfold m0. cbn [bmx A bc_make]. rewrite !elem0_alloc by assumption. reflexivity.
    + intros i k a c Hf Ha Hc. unfold A, B. rewrite pentry_blocks by assumption. apply rsum_zero. intros j _. destruct (mom_find i j (otab ma)) as [ta|] eqn:Ea; [|reflexivity]. destruct (mom_find j k (otab mb)) as [u|] eqn:Eb; [|reflexivity].
      apply otab_some in Ea as [_ Ea]. apply otab_some in Eb as [_ Eb]. apply nth_error_In in Ea, Eb. assert (H : bc_is_filled D i k = true) by (apply Fi; eauto). congruence.
Qed.

(* ---- when it throws *)
Lemma foldM_throw_inv {S X} (Q : S -> Prop) (f : X -> S -> res S) l : (forall a s, In a l -> Q s -> (exists s', f a s = Ok s' /\ Q s') \/ f a s = Throw) ->
  (exists a, In a l /\ forall s, Q s -> f a s = Throw) -> forall s, Q s -> foldM f l s = Throw.
Proof.
  intros H (a0 & Hin & Ht). induction l as [|a l IH]; [destruct Hin|]. intros s Hs. cbn [foldM]. destruct Hin as [->|Hin]; [now rewrite Ht|].
  destruct (H a s (or_introl eq_refl) Hs) as [(s' & -> & Hs')| ->]; [|reflexivity]. cbn [bind]. apply IH; [|exact Hin|exact Hs']. intros x y Hx. apply H. now right.
Qed.
Lemma foldM_keep_inv {S X} (Q : S -> Prop) (f : X -> S -> res S) l : (forall a s, In a l -> Q s -> (exists s', f a s = Ok s' /\ Q s') \/ f a s = Throw) ->
  forall s, Q s -> (exists s', foldM f l s = Ok s' /\ Q s') \/ foldM f l s = Throw.
Proof.
  intro H. induction l as [|a l IH]; intros s Hs; [left; exists s; split; [reflexivity|exact Hs]|]. cbn [foldM].
  destruct (H a s (or_introl eq_refl) Hs) as [(s' & -> & Hs')| ->]; [|now right]. cbn [bind]. apply IH; [|exact Hs']. intros x y Hx. apply H. now right.
Qed.
(* the three loops of the product, any table, any step *)
Lemma loops_throw (Q : memR -> Prop) (WA WB : list (Z * zmap Z)) (st : Z -> Z -> Z -> memR -> res memR) (m : memR) :
  (forall i row k col j ta u m, In (i, row) WA -> In (k, col) WB -> In (j, ta) row -> mfind j col = Some u -> Q m -> (exists m', st i j k m = Ok m' /\ Q m') \/ st i j k m = Throw) ->
  (exists i row k col j ta u, In (i, row) WA /\ In (k, col) WB /\ In (j, ta) row /\ mfind j col = Some u /\ forall m, Q m -> st i j k m = Throw) -> Q m ->
  foldM (fun p1 => foldM (fun p2 => foldM (fun q1 m => match mfind (fst q1) (snd p2) with Some _ => st (fst p1) (fst q1) (fst p2) m | None => Ok m end) (snd p1)) WB) WA m = Throw.
Proof.
  intros H (i & row & k & col & j & ta & u & Hi & Hk & Hj & Hu & Ht) Hm.
  assert (L3 : forall i row k col, In (i, row) WA -> In (k, col) WB -> forall (a : Z * Z) s, In a row -> Q s -> (exists s', (fun q1 m => match mfind (fst q1) col with Some _ => st i (fst q1) k m | None => Ok m end) a s = Ok s' /\ Q s') \/ (fun q1 m => match mfind (fst q1) col with Some _ => st i (fst q1) k m | None => Ok m end) a s = Throw).
  { intros i' row' k' col' Hi' Hk' [j' ta'] s Hj' Hs. cbn [fst]. destruct (mfind j' col') as [u'|] eqn:E; [|left; eauto]. now apply (H i' row' k' col' j' ta' u'). }
  apply (foldM_throw_inv Q); [| |exact Hm].
  - intros [i' row'] s Hi' Hs. apply (foldM_keep_inv Q); [|exact Hs]. intros [k' col'] s' Hk' Hs'. apply (foldM_keep_inv Q); [|exact Hs']. cbn [fst snd]. now apply L3.
  - exists (i, row). split; [exact Hi|]. intros s Hs. apply (foldM_throw_inv Q); [| |exact Hs].
    + intros [k' col'] s' Hk' Hs'. apply (foldM_keep_inv Q); [|exact Hs']. cbn [fst snd]. now apply L3.
    + exists (k, col). split; [exact Hk|]. intros s' Hs'. apply (foldM_throw_inv Q); [| |exact Hs'].
      * cbn [fst snd]. now apply L3.
      * exists (j, ta). split; [exact Hj|]. cbn [fst snd]. rewrite Hu. exact Ht.
Qed.
Lemma walk_has i j k ma mb : In (i, j) ma -> In (j, k) mb -> exists row col ta u, In (i, row) (walk (otab ma)) /\ In (k, col) (walk (otabc mb)) /\ In (j, ta) row /\ mfind j col = Some u.
Proof.
  intros Ia Ib. destruct (mom_find i j (otab ma)) as [ta|] eqn:Ea; [|apply otab_none in Ea; contradiction]. destruct (mom_find j k (otab mb)) as [u|] eqn:Eb; [|apply otab_none in Eb; contradiction].
  rewrite <- walk_get in Ea by apply otab_wf. rewrite <- otabc_find, <- walk_get in Eb by apply otabc_wf. unfold mom_find, mom_row in Ea, Eb.
  destruct (mfind i (walk (otab ma))) as [row|] eqn:Er; [|discriminate]. destruct (mfind k (walk (otabc mb))) as [col|] eqn:Ec; [|discriminate].
  exists row, col, ta, u. repeat split; try assumption; now apply mfind_in.
Qed.
Lemma mul_sides un um ubn ubm b A B ma mb (m : memR) i j k : made_from A ma -> made_from B mb -> bbm A <> bbn B -> In (i, j) ma -> In (j, k) mb -> bc_mul un um ubn ubm b A B m = Throw.
Proof.
  intros MA MB. pose proof (pairs_in A B ma mb MA MB) as Pin. revert Pin.
  destruct MA as (nA & mA & bn & bm & bA & -> & Hbn & Hbm & HnA & HmA & HA). destruct MB as (nB & mB & bm' & C & bB & -> & Hbm' & HC & HnB & HmB & HB).
  cbn [bbn bbm bc_make]. intros Pin Hne Ia Ib. rewrite mul_shape. set (A := bc_make nA mA bn bm ma bA) in *. set (B := bc_make nB mB bm' C mb bB) in *. set (P := bc_mul_pairs A B) in *.
  match goal with |- context [foldM ?f ?l ?m0] => enough (E : foldM f l m0 = Throw) by (rewrite E; reflexivity) end.
  change (walk (Model_Containers.rmap (boffs A))) with (walk (otab ma)). change (walk (cmap (boffs B))) with (walk (otabc mb)).
  assert (St : forall i' row k' col j' ta u (m : memR), In (i', row) (walk (otab ma)) -> In (k', col) (walk (otabc mb)) -> In (j', ta) row -> mfind j' col = Some u ->
    bc_mul_step (BCM un um ubn ubm (fresh_view b [zlen P; bbn A; bbm B]) (fst (offsets_of P))) A B i' j' k' m = Throw).
  { intros i' row k' col j' ta u m1 Hi Hk Hj Hu. destruct (leaf ma mb i' row k' col j' ta u Hi Hk Hj Hu) as [E1 E2].
    pose proof (otab_some _ _ _ _ E1) as [Ta Fa]. pose proof (otab_some _ _ _ _ E2) as [Tb Fb]. apply nth_error_In in Fa, Fb. rewrite Forall_forall in HA, HB. pose proof (HA _ Fa) as Ra. pose proof (HB _ Fb) as Rb. cbn in Ra, Rb.
    unfold bc_mul_step, bc_block. rewrite !bc_offset_find. cbn [bnb bmb bmx boffs]. change (Model_Containers.rmap (fst (offsets_of P))) with (otab P). change (Model_Containers.rmap (boffs A)) with (otab ma). change (Model_Containers.rmap (boffs B)) with (otab mb). rewrite E1, E2.
    destruct (i' <? un); [|reflexivity]. destruct (k' <? um); [|reflexivity]. cbn [assrt]. destruct (mom_find i' k' (otab P)) as [t|]; [|reflexivity]. cbn [bind].
    destruct (slice0_ok (fresh_view b [zlen P; bbn A; bbm B]) t (zlen P) bn C) as (v & Ev & _ & Dv & _); [apply fresh_wf; pose proof (zlen_nonneg P); cbn; repeat constructor; lia|reflexivity|]. rewrite Ev. cbn [bind].
    cbn [bnb bmb bmx A B bc_make]. replace (i' <? nA) with true by lia. replace (j' <? mA) with true by lia. replace (j' <? nB) with true by lia. replace (k' <? mB) with true by lia. cbn [assrt bind].
    destruct (slice0_ok (fresh_view bA [Z.of_nat (length ma); bn; bm]) ta (Z.of_nat (length ma)) bn bm) as (x & Ex & _ & Dx & _); [apply fresh_wf; repeat constructor; lia|reflexivity|]. rewrite Ex. cbn [bind].
    destruct (slice0_ok (fresh_view bB [Z.of_nat (length mb); bm'; C]) u (Z.of_nat (length mb)) bm' C) as (y & Ey & _ & Dy & _); [apply fresh_wf; repeat constructor; lia|reflexivity|]. rewrite Ey. cbn [bind].
    unfold tv_add_mprod. rewrite Dv, Dx, Dy. replace (bm =? bm') with false by (symmetry; apply Z.eqb_neq; exact Hne). rewrite andb_false_r. reflexivity. }
  apply (loops_throw (fun _ => True)); [| |exact I].
  - intros i' row k' col j' ta u m1 Hi Hk Hj Hu _. right. now apply (St i' row k' col j' ta u).
  - destruct (walk_has i j k ma mb Ia Ib) as (row & col & ta & u & Hi & Hk & Hj & Hu). exists i, row, k, col, j, ta, u. repeat (split; [assumption|]). intros m1 _. now apply (St i row k col j ta u).
Qed.
Lemma mul_small un um ubn ubm b A B ma mb (m : memR) i j k : made_from A ma -> made_from B mb -> bbm A = bbn B -> readable m (bmx A) -> readable m (bmx B) ->
  vblk (bmx A) <> b -> vblk (bmx B) <> b -> In (i, j) ma -> In (j, k) mb -> un <= i \/ um <= k -> bc_mul un um ubn ubm b A B m = Throw.
Proof.
  intros MA MB. destruct MA as (nA & mA & bn & bm & bA & -> & Hbn & Hbm & HnA & HmA & HA). destruct MB as (nB & mB & bm' & C & bB & -> & Hbm' & HC & HnB & HmB & HB).
  cbn [bbn bbm bc_make]. intros <- RA RB NA NB Ia Ib Hs. cbn [vblk bmx bc_make fresh_view] in NA, NB.
  rewrite mul_shape. set (A := bc_make nA mA bn bm ma bA) in *. set (B := bc_make nB mB bm C mb bB) in *. set (P := bc_mul_pairs A B) in *. cbn [bbn bbm bmb A B bc_make].
  set (D := BCM un um ubn ubm (fresh_view b [zlen P; bn; C]) (fst (offsets_of P))). set (m0 := alloc c0 b (asize [zlen P; bn; C]) m). pose proof (zlen_nonneg P) as HT.
  match goal with |- context [foldM ?f ?l ?m0] => enough (E : foldM f l m0 = Throw) by (rewrite E; reflexivity) end.
  change (walk (Model_Containers.rmap (boffs (bc_make nA mA bn bm ma bA)))) with (walk (otab ma)). change (walk (cmap (boffs (bc_make nB mB bm C mb bB)))) with (walk (otabc mb)). fold A. fold B.
  assert (St : forall i' j' k' (m : memR), un <= i' \/ um <= k' -> bc_mul_step D A B i' j' k' m = Throw).
  { intros i' j' k' m1 H. unfold bc_mul_step, bc_block. cbn [bnb bmb D]. destruct (Z.ltb_spec i' un); [|reflexivity]. destruct (Z.ltb_spec k' um); [lia|reflexivity]. }
  apply (loops_throw (fun m => readable m (fresh_view b [zlen P * bn; C]) /\ readable m (fresh_view bB [zlen mb * bm; C]) /\ readable m (bmx A)) (walk (otab ma)) (walk (otabc mb)) (bc_mul_step D A B)).
  - intros i' row k' col j' ta u m1 Hi Hk Hj Hu (R1 & R2 & R3). destruct (Z_le_gt_dec un i') as [L|L]; [right; apply St; now left|]. destruct (Z_le_gt_dec um k') as [L'|L']; [right; apply St; now right|]. left.
    destruct (leaf ma mb i' row k' col j' ta u Hi Hk Hj Hu) as [E1 E2].
    destruct (found nA mA bn bm bA ma nB mB C bB mb Hbn Hbm HC HA HB HnA HmA HnB HmB _ _ _ _ _ E1 E2) as (_ & _ & B1 & B2 & t & Et & Bt).
    destruct (step_keeps nA mA bn bm bA ma nB mB C bB mb b Hbn Hbm HC NA NB t ta u m1 Bt B1 B2 R1 R2 R3) as (m2 & E & K). exists m2. split; [|exact K]. rewrite <- E.
    apply (step_eq nA mA bn bm bA ma nB mB C bB mb un um ubn ubm b Hbn Hbm HC HA HB HnA HmA HnB HmB i' j' k' ta u t m1 E1 E2 Et); lia.
  - destruct (walk_has i j k ma mb Ia Ib) as (row & col & ta & u & Hi & Hk & Hj & Hu). exists i, row, k, col, j, ta, u. repeat (split; [assumption|]). intros m1 _. now apply St.
  - split; [|split].
    + intros ix Hix. apply in_range_2_inv in Hix as (I & e & -> & HI & He). unfold m0. rewrite fresh_block_zero by assumption. discriminate.
    + now apply fresh_block_read.
    + intros ix Hix Hn. apply (RA ix Hix). revert Hn. unfold elem. cbn [bmx A bc_make]. destruct (vaddr (fresh_view bA [Z.of_nat (length ma); bn; bm]) ix) as [[x y]| |] eqn:Ev; [|auto|auto]. apply vaddr_blk in Ev. cbn in Ev. subst x. unfold m0. now rewrite alloc_other.
Qed.
End Mul.
