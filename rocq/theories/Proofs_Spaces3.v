From Coq Require Import Reals Lra.
From Verif Require Import Base BaseFacts Model_Index Model_View Model_Tensor Model_Ops Model_CView Model_Spaces
  Spec_Index Spec_View Spec_Tensor Spec_Ops Spec_Spaces Proofs_Axes Proofs_Index Proofs_View Proofs_View2 Proofs_Tensor Proofs_Tensor2 Proofs_Tensor3 Proofs_Ops
  Proofs_Program Proofs_Sparse Proofs_Spaces Proofs_Spaces2.
Local Open Scope Z_scope.

Section Herm.
Context {H : hfield}.
Notation A := (hr H).
Notation memA := (mem (car A)).
Notation resid := (leftover H).
Notation in_span := (spanned H).
Add Ring RrSp3 : (cth A).

(* ---- what the inner loop computes ---- *)
Fixpoint sweep (n : Z) (k : nat) (Q : Z -> Z -> A) (v : Z -> A) : Z -> A :=
  match k with
  | O => v
  | S k' => fun p => csub (sweep n k' Q v p) (cmul (ip H n (sweep n k' Q v) (Q (Z.of_nat k'))) (Q (Z.of_nat k') p))
  end.
Definition sweepZ (n k : Z) := sweep n (Z.to_nat k).
Lemma sweepZ_succ n k Q v p : 0 <= k ->
  sweepZ n (k + 1) Q v p = csub (sweepZ n k Q v p) (cmul (ip H n (sweepZ n k Q v) (Q k)) (Q k p)).
Proof. intro Hk. unfold sweepZ. replace (Z.to_nat (k + 1)) with (S (Z.to_nat k)) by lia. cbn [sweep]. now rewrite Z2Nat.id. Qed.
Lemma sweep_ext n k Q Q' v v' : (forall j p, 0 <= j < Z.of_nat k -> 0 <= p < n -> Q j p = Q' j p) -> (forall p, 0 <= p < n -> v p = v' p) ->
  forall p, 0 <= p < n -> sweep n k Q v p = sweep n k Q' v' p.
Proof.
  intros EQ Ev. induction k as [|k IH]; intros p Hp; cbn [sweep]; [auto|].
  assert (IH' : forall p, 0 <= p < n -> sweep n k Q v p = sweep n k Q' v' p) by (apply IH; intros; apply EQ; lia).
  rewrite IH' by assumption. rewrite EQ by lia. do 2 f_equal. apply ip_ext; auto. intros. apply EQ; lia.
Qed.
(* for the real numbers, and orthonormal Q, it is the residual *)
Lemma sweep_resid n k Q v : (forall x, hconj H x = x) -> orthonormal H n (Z.of_nat k) Q ->
  forall p, 0 <= p < n -> sweep n k Q v p = resid n (Z.of_nat k) Q v p.
Proof.
  intro Hc. induction k as [|k IH]; intros O p Hp; cbn [sweep].
  - unfold leftover, comb. cbn. rewrite rsum_nil. ring.
  - assert (O' : orthonormal H n (Z.of_nat k) Q) by (intros i j Hi Hj; apply O; lia).
    specialize (IH O'). replace (Z.of_nat (S k)) with (Z.of_nat k + 1) in * by lia.
    rewrite <- resid_step by (try assumption; lia). rewrite IH by assumption. do 2 f_equal.
    rewrite <- ip_conj, Hc. apply ip_ext; auto.
Qed.

(* c is swept along the columns of T *)
Lemma sweep_loop c T n k mm Q v (m : memA) : 0 <= k <= mm -> gvec c n -> gmat T n mm -> vblk c <> vblk T ->
  vals m c n v -> columns H m T n mm Q ->
  exists m', forZ k (fun j m => do t <- col j T; do s <- tv_hinp H c t m; tv_subc c t s m) m = Ok m' /\
    vals m' c n (sweepZ n k Q v) /\ untouched m m' c.
Proof.
  intros Hk Gc GT Nb V C.
  destruct (forZ_inv (fun j m' => vals m' c n (sweepZ n j Q v) /\ untouched m m' c) k
    (fun j m => do t <- col j T; do s <- tv_hinp H c t m; tv_subc c t s m) m) as (m' & E & V' & U').
  - lia.
  - split; [exact V|]. intros b a _. reflexivity.
  - intros j m1 Hj (V1 & U1). destruct (col_ok T n mm j GT ltac:(lia)) as (t & Et & Gt & Bt & At). rewrite Et. cbn [bind].
    assert (C1 : columns H m1 T n mm Q) by (eapply cols_keep; eauto).
    assert (Vt : vals m1 t n (Q j)) by (eapply cols_vals; eauto; lia).
    rewrite (vec_inp c t n (sweepZ n j Q v) (Q j) m1 Gc Gt V1 Vt). cbn [bind].
    assert (Dj : disjoint_views c t) by (apply (vec_disjoint c t n n); auto; congruence).
    destruct (vec_subc c t n (sweepZ n j Q v) (Q j) (ip H n (sweepZ n j Q v) (Q j)) m1 Gc Gt Dj V1 Vt) as (m2 & E2 & V2 & U2).
    exists m2. split; [exact E2|]. split.
    + eapply vals_ext; [exact V2|]. intros p Hp. symmetry. apply sweepZ_succ. lia.
    + intros b a Hn. rewrite U2 by assumption. now apply U1.
  - exists m'. auto.
Qed.

(* ---- one pass, and the constructor's loop, on functions ---- *)
Definition unit_of (n : Z) (w : Z -> A) : Z -> A := fun p => cmul (hinj H (1 / sqrt (len2 H n w))%R) (w p).
Definition kept (thr : R) (n : Z) (w : Z -> A) : bool := if Rlt_dec thr (sqrt (len2 H n w)) then true else false.
Definition pstep (n : Z) (thr : R) (st : Z * (Z -> Z -> A)) (v : Z -> A) : Z * (Z -> Z -> A) :=
  let w := sweepZ n (fst st) (snd st) v in
  if kept thr n w then (fst st + 1, extend (fst st) (snd st) (unit_of n w)) else st.
Fixpoint prun (n : Z) (thr : R) (F : Z -> Z -> A) (i : nat) : Z * (Z -> Z -> A) :=
  match i with O => (0, fun _ _ => c0) | S i' => pstep n thr (prun n thr F i') (F (Z.of_nat i')) end.
Lemma prun_count n thr F i : 0 <= fst (prun n thr F i) <= Z.of_nat i.
Proof. induction i as [|i IH]; cbn [prun]; [cbn; lia|]. unfold pstep. destruct (kept _ _ _); cbn [fst]; lia. Qed.
(* the columns not yet found are 0 *)
Lemma prun_zero n thr F i j p : fst (prun n thr F i) <= j -> snd (prun n thr F i) j p = c0.
Proof.
  induction i as [|i IH]; cbn [prun]; [reflexivity|]. unfold pstep. destruct (kept _ _ _); cbn [fst snd]; [|assumption].
  intro Hj. unfold extend. replace (j =? _) with false by lia. apply IH. lia.
Qed.
Definition swept (n : Z) (thr : R) (F : Z -> Z -> A) (i : Z) : Z -> A :=
  sweepZ n (fst (prun n thr F (Z.to_nat i))) (snd (prun n thr F (Z.to_nat i))) (F i).

Lemma cs_step_ok M T n mm thr F i (m : memA) : gmat M n mm -> gmat T n mm -> vblk M <> vblk T -> 0 <= i < mm ->
  columns H m M n mm (fun j => if j <? i then swept n thr F j else F j) ->
  columns H m T n mm (snd (prun n thr F (Z.to_nat i))) ->
  exists m', cs_step H M T thr i (fst (prun n thr F (Z.to_nat i)), m) = Ok (fst (prun n thr F (Z.to_nat (i + 1))), m') /\
    columns H m' M n mm (fun j => if j <? i + 1 then swept n thr F j else F j) /\
    columns H m' T n mm (snd (prun n thr F (Z.to_nat (i + 1)))) /\
    (forall b a, b <> vblk T -> (forall ix, in_range ix (vdims M) -> vaddr M ix <> Ok (b, a)) -> m' b a = m b a).
Proof.
  intros GM GT Nb Hi CM CT. unfold cs_step.
  destruct (col_ok M n mm i GM Hi) as (c & Ec & Gc & Bc & Ac). rewrite Ec. cbn [bind].
  pose proof (prun_count n thr F (Z.to_nat i)) as Hk. set (k := fst (prun n thr F (Z.to_nat i))) in *. set (Q := snd (prun n thr F (Z.to_nat i))) in *.
  assert (Vc : vals m c n (F i)).
  { pose proof (cols_vals m M n mm _ c i CM Hi Ac) as V0. cbn beta in V0. now replace (i <? i) with false in V0 by lia. }
  destruct (sweep_loop c T n k mm Q (F i) m) as (m1 & E1 & V1 & U1); auto; [lia|congruence|]. rewrite E1. cbn [bind].
  rewrite (vec_norm c n _ m1 Gc V1). cbn [bind].
  assert (S1 : sweepZ n k Q (F i) = swept n thr F i) by reflexivity. rewrite S1 in *.
  assert (CM1 : columns H m1 M n mm (fun j => if j <? i + 1 then swept n thr F j else F j)).
  { eapply cols_ext; [exact (cols_put m m1 M n mm _ c i _ GM CM Hi Gc Ac V1 U1)|]. intros j p Hj Hp. cbn.
    destruct (j =? i) eqn:Ej; [replace j with i by lia; now replace (i <? i + 1) with true by lia|].
    destruct (j <? i) eqn:Ej'; [now replace (j <? i + 1) with true by lia|now replace (j <? i + 1) with false by lia]. }
  assert (CT1 : columns H m1 T n mm Q) by (apply (cols_keep m m1 T n mm Q c CT); [congruence|exact U1]).
  assert (Next : prun n thr F (Z.to_nat (i + 1)) = pstep n thr (k, Q) (F i)).
  { replace (Z.to_nat (i + 1)) with (S (Z.to_nat i)) by lia. cbn [prun]. rewrite Z2Nat.id by lia. unfold k, Q. now rewrite <- surjective_pairing. }
  rewrite Next. unfold pstep. cbn [fst snd]. rewrite S1. unfold kept.
  destruct (Rlt_dec thr (sqrt (len2 H n (swept n thr F i)))) as [Lt|Ge].
  - destruct (col_ok T n mm k GT ltac:(lia)) as (t & Et & Gt & Bt & At). rewrite Et. cbn [bind].
    assert (Vt : vals m1 t n (Q k)) by (eapply cols_vals; eauto; lia).
    assert (Dj : disjoint_views t c) by (apply (vec_disjoint t c n n); auto; congruence).
    destruct (vec_addc t c n (Q k) _ (hinj H (1 / sqrt (len2 H n (swept n thr F i)))%R) m1 Gt Gc Dj Vt V1) as (m2 & E2 & V2 & U2).
    rewrite E2. cbn [bind]. exists m2. split; [reflexivity|]. split; [|split].
    + apply (cols_keep m1 m2 M n mm _ t CM1); [congruence|exact U2].
    + eapply cols_ext; [apply (cols_put m1 m2 T n mm Q t k _ GT CT1 ltac:(lia) Gt At V2 U2)|].
      intros j p Hj Hp. cbn [snd]. unfold extend. destruct (j =? k); [|reflexivity]. unfold unit_of.
      replace (Q k p) with (c0 : A) by (symmetry; apply prun_zero; unfold k; lia). ring.
    + intros b a Hb Ha. rewrite U2, U1; [reflexivity| |].
      * intros ix Hix. rewrite (proj1 Gc) in Hix. apply in_range1' in Hix as (p & -> & Hp). rewrite Ac. apply Ha. rewrite (proj1 GM). apply in_range2; lia.
      * intros ix _ E. apply vaddr_blk in E. cbn in E. congruence.
  - exists m1. split; [reflexivity|]. split; [exact CM1|]. split; [exact CT1|]. intros b a Hb Ha. apply U1.
    intros ix Hix. rewrite (proj1 Gc) in Hix. apply in_range1' in Hix as (p & -> & Hp). rewrite Ac. apply Ha. rewrite (proj1 GM). apply in_range2; lia.
Qed.

Lemma block_cols n mm b k : 0 <= k <= mm -> block_dims [n; k] (fresh_view b [n; mm]) = Ok (View b 0 [n; k] (vstr (fresh_view b [n; mm]))).
Proof.
  intro Hk. unfold block_dims. cbn [fresh_view vdims vblk voff gvec_le]. rewrite Z.eqb_refl.
  destruct (k =? mm) eqn:E; [reflexivity|]. replace (k <=? mm) with true by lia. reflexivity.
Qed.

(* ColumnSpace computes prun *)
Lemma column_space_run b M n mm thr F (m : memA) : gmat M n mm -> vblk M <> b -> columns H m M n mm F ->
  exists m', column_space H b M thr m = Ok (View b 0 [n; fst (prun n thr F (Z.to_nat mm))] (vstr (fresh_view b [n; mm])), m') /\ columns H m' M n mm (swept n thr F) /\ columns H m' (fresh_view b [n; mm]) n mm (snd (prun n thr F (Z.to_nat mm))) /\ (forall b' a, b' <> b -> (forall ix, in_range ix (vdims M) -> vaddr M ix <> Ok (b', a)) -> m' b' a = m b' a).
Proof.
  intros GM Nb CM. destruct (gmat_str M n mm GM) as (s0 & s1 & _ & _ & _ & Hn & Hm).
  pose proof (gmat_fresh b n mm Hn Hm) as GT. pose proof (proj1 GM) as D.
  assert (Hnn : nonneg [n; mm]) by (repeat constructor; assumption).
  unfold column_space, zeros. rewrite D. set (T := fresh_view b [n; mm]) in *. set (m0 := Model_Tensor.alloc c0 b (asize [n; mm]) m).
  assert (CM0 : columns H m0 M n mm F).
  { split; [exact D|]. intros p i Hp Hi. pose proof (proj2 CM p i Hp Hi) as E. unfold elem in *.
    destruct (vaddr M [p; i]) as [[b' a]| |] eqn:Ea; try discriminate. unfold m0. rewrite alloc_other; [exact E|].
    apply vaddr_blk in Ea. cbn in Ea. congruence. }
  assert (CT0 : columns H m0 T n mm (fun _ _ => c0)).
  { split; [reflexivity|]. intros p i Hp Hi. unfold m0, T. apply fresh_readable; [assumption|]. apply in_range2. lia. }
  destruct (forZ_inv (fun i st => fst st = fst (prun n thr F (Z.to_nat i)) /\ columns H (snd st) M n mm (fun j => if j <? i then swept n thr F j else F j) /\ columns H (snd st) T n mm (snd (prun n thr F (Z.to_nat i))) /\ (forall b' a, b' <> b -> (forall ix, in_range ix (vdims M) -> vaddr M ix <> Ok (b', a)) -> snd st b' a = m b' a)) mm
    (cs_step H M T thr) (0, m0)) as ([k m'] & E & Ek & CM' & CT' & U').
  - assumption.
  - cbn [fst snd]. split; [reflexivity|]. split; [|split; [exact CT0|]].
    + eapply cols_ext; [exact CM0|]. intros j p Hj Hp. now replace (j <? 0) with false by lia.
    + intros b' a Hb' _. unfold m0. now apply alloc_other.
  - intros i [k m1] Hi (Ek & C1 & C2 & U1). cbn [fst snd] in *. subst k.
    destruct (cs_step_ok M T n mm thr F i m1 GM GT Nb Hi C1 C2) as (m2 & E2 & C1' & C2' & U2).
    eexists. split; [exact E2|]. cbn [fst snd]. split; [reflexivity|]. split; [exact C1'|]. split; [exact C2'|].
    intros b' a Hb Ha. rewrite U2 by assumption. now apply U1.
  - cbn [fst snd] in *. subst k. rewrite E. cbn [bind].
    unfold T at 1. rewrite block_cols by (pose proof (prun_count n thr F (Z.to_nat mm)); lia). cbn [bind].
    exists m'. split; [reflexivity|]. split; [|split; [exact CT'|rewrite <- D; exact U']].
    eapply cols_ext; [exact CM'|]. intros j p Hj Hp. cbn. now replace (j <? mm) with true by lia.
Qed.
Lemma block_columns b n mm k Q (m : memA) : 0 <= k <= mm -> columns H m (fresh_view b [n; mm]) n mm Q ->
  columns H m (View b 0 [n; k] (vstr (fresh_view b [n; mm]))) n k Q.
Proof. intros Hk (_ & V). split; [reflexivity|]. intros p i Hp Hi. apply (V p i); lia. Qed.

(* ---- for the real numbers ---- *)
Section RealCase.
Hypothesis Hc : forall x, hconj H x = x.
Variable n : Z.
Hypothesis Hn : 0 <= n.
Variable thr : R.
Hypothesis Ht : (0 <= thr)%R.
Variable F : Z -> Z -> A.
Notation kk i := (fst (prun n thr F i)).
Notation QQ i := (snd (prun n thr F i)).

Lemma prun_orth i : orthonormal H n (kk i) (QQ i).
Proof.
  induction i as [|i IH]; cbn [prun]; [intros a b Ha; cbn in Ha; lia|]. unfold pstep.
  set (w := sweepZ n (kk i) (QQ i) (F (Z.of_nat i))). unfold kept. destruct (Rlt_dec thr (sqrt (len2 H n w))) as [Lt|]; [|exact IH]. cbn [fst snd].
  pose proof (prun_count n thr F i) as Hk.
  assert (Ew : forall p, 0 <= p < n -> w p = resid n (kk i) (QQ i) (F (Z.of_nat i)) p).
  { intros p Hp. unfold w, sweepZ. rewrite sweep_resid; rewrite ?Z2Nat.id by lia; auto. }
  apply orthonormal_extend; [exact IH| |].
  - apply unit_len. intro E. rewrite E, sqrt_0 in Lt. lra.
  - intros j Hj. unfold unit_of. rewrite ip_scale_r. rewrite (ip_ext n _ (QQ i j) _ (resid n (kk i) (QQ i) (F (Z.of_nat i)))) by auto.
    rewrite resid_orth by assumption. ring.
Qed.
Lemma prun_mono i i' : (i <= i')%nat -> kk i <= kk i' /\ forall j p, j < kk i -> QQ i' j p = QQ i j p.
Proof.
  induction 1 as [|i' Hi IH]; [split; [lia|reflexivity]|]. cbn [prun]. unfold pstep. destruct (kept _ _ _); [|exact IH]. cbn [fst snd].
  destruct IH as [IH1 IH2]. split; [lia|]. intros j p Hj. unfold extend. replace (j =? _) with false by lia. now apply IH2.
Qed.
Lemma swept_resid mm i : 0 <= i < mm -> forall p, 0 <= p < n ->
  swept n thr F i p = resid n (kk (Z.to_nat i)) (QQ (Z.to_nat mm)) (F i) p.
Proof.
  intros Hi p Hp. unfold swept, sweepZ. pose proof (prun_count n thr F (Z.to_nat i)) as Hk.
  rewrite sweep_resid; auto; rewrite ?Z2Nat.id by lia; [|apply prun_orth]. apply resid_ext; auto.
  intros j q Hj Hq. symmetry. apply (prun_mono (Z.to_nat i) (Z.to_nat mm)); lia.
Qed.
Lemma prun_next mm i : 0 <= i < mm ->
  let w := resid n (kk (Z.to_nat i)) (QQ (Z.to_nat mm)) (F i) in
  ((thr < sqrt (len2 H n w))%R -> kk (Z.to_nat (i + 1)) = kk (Z.to_nat i) + 1 /\ forall p, 0 <= p < n -> QQ (Z.to_nat mm) (kk (Z.to_nat i)) p = cmul (hinj H (1 / sqrt (len2 H n w))%R) (w p)) /\ (~ (thr < sqrt (len2 H n w))%R -> kk (Z.to_nat (i + 1)) = kk (Z.to_nat i)).
Proof.
  intros Hi w.
  assert (Ew : forall p, 0 <= p < n -> swept n thr F i p = w p) by (intros; now apply swept_resid).
  assert (Next : prun n thr F (Z.to_nat (i + 1)) = pstep n thr (kk (Z.to_nat i), QQ (Z.to_nat i)) (F i)).
  { replace (Z.to_nat (i + 1)) with (S (Z.to_nat i)) by lia. cbn [prun]. rewrite Z2Nat.id by lia. now rewrite <- surjective_pairing. }
  assert (El : len2 H n (swept n thr F i) = len2 H n w) by now apply len2_ext.
  unfold pstep in Next. cbn [fst snd] in Next. fold (swept n thr F i) in Next. unfold kept in Next. rewrite El in Next.
  destruct (Rlt_dec thr (sqrt (len2 H n w))) as [Lt|Ge].
  - split; [|contradiction]. intros _. split; [now rewrite Next|]. intros p Hp.
    rewrite (proj2 (prun_mono (Z.to_nat (i + 1)) (Z.to_nat mm) ltac:(lia))) by (rewrite Next; cbn [fst]; lia).
    rewrite Next. cbn [snd]. unfold extend. rewrite Z.eqb_refl. unfold unit_of. rewrite El, Ew by assumption. reflexivity.
  - split; [contradiction|]. intros _. now rewrite Next.
Qed.
(* every column is within the threshold of the span *)
Lemma prun_close mm i : 0 <= i < mm -> exists c, (len2 H n (fun p => csub (F i p) (comb H (kk (Z.to_nat mm)) c (QQ (Z.to_nat mm)) p)) <= thr * thr)%R.
Proof.
  intro Hi. set (k := kk (Z.to_nat i)). set (Q := QQ (Z.to_nat mm)). set (w := resid n k Q (F i)).
  pose proof (prun_next mm i Hi) as [N1 N2]. cbv zeta in N1, N2. fold k Q w in N1, N2.
  pose proof (proj1 (prun_mono (Z.to_nat (i + 1)) (Z.to_nat mm) ltac:(lia))) as Hk'.
  pose proof (proj1 (prun_mono (Z.to_nat i) (Z.to_nat mm) ltac:(lia))) as Hk0. fold k in Hk0.
  pose proof (prun_count n thr F (Z.to_nat i)) as Hk1. fold k in Hk1.
  set (K := kk (Z.to_nat mm)) in *.
  (* coefficients for the first k columns, and x for column k *)
  assert (G : forall (d : Z -> A) k', 0 <= k' <= K -> forall p, comb H K (fun j => if j <? k' then d j else c0) Q p = comb H k' d Q p).
  { intros d k' Hk p. unfold comb. replace K with (k' + (K - k')) by lia. rewrite zrange_app by lia. rewrite map_app, rsum_app, map_map.
    rewrite (rsum_zero A (fun x => cmul (if k' + x <? k' then d (k' + x) else c0) (Q (k' + x) p))).
    - rewrite (rsum_ext A (fun j => cmul (if j <? k' then d j else c0) (Q j p)) (fun j => cmul (d j) (Q j p))); [ring|].
      intros j Hj. apply in_zrange in Hj. now replace (j <? k') with true by lia.
    - intros j Hj. apply in_zrange in Hj. replace (k' + j <? k') with false by lia. ring. }
  destruct (Rlt_dec thr (sqrt (len2 H n w))) as [Lt|Ge].
  - destruct (N1 Lt) as [E1 E2]. set (l := sqrt (len2 H n w)) in *.
    exists (fun j => if j <? k + 1 then (if j =? k then hinj H l else ip H n (Q j) (F i)) else c0).
    rewrite (len2_ext n _ (fun _ => c0)).
    + replace (len2 H n (fun _ => c0)) with 0%R; [nra|]. apply (hinj_eq H). rewrite ip_len2, ip_zero_r. apply hinj_0.
    + intros p Hp. rewrite G by lia. unfold comb. rewrite zrange_snoc, map_app, rsum_app by lia. cbn [map]. rewrite rsum_cons, rsum_nil, Z.eqb_refl.
      rewrite E2 by assumption.
      replace (cmul (hinj H l) (cmul (hinj H (1 / l)%R) (w p))) with (w p).
      2:{ replace (cmul (hinj H l) (cmul (hinj H (1 / l)%R) (w p))) with (cmul (cmul (hinj H l) (hinj H (1 / l)%R)) (w p)) by ring.
          rewrite <- hinj_mul. replace (l * (1 / l))%R with 1%R by (field; lra). rewrite hinj_1. ring. }
      unfold w, leftover, comb. rewrite (rsum_ext A (fun j => cmul (if j =? k then hinj H l else ip H n (Q j) (F i)) (Q j p)) (fun j => cmul (ip H n (Q j) (F i)) (Q j p))); [ring|].
      intros j Hj. apply in_zrange in Hj. now replace (j =? k) with false by lia.
  - exists (fun j => if j <? k then ip H n (Q j) (F i) else c0).
    rewrite (len2_ext n _ w).
    + assert (Le : (sqrt (len2 H n w) <= thr)%R) by lra. pose proof (len2_pos n w) as P0. pose proof (sqrt_pos (len2 H n w)) as P1.
      rewrite <- (sqrt_def (len2 H n w) P0). nra.
    + intros p Hp. rewrite G by lia. reflexivity.
Qed.
(* every column found is in the span of the columns given *)
Lemma prun_span i : forall j, 0 <= j < kk i -> in_span n (Z.of_nat i) F (QQ i j).
Proof.
  induction i as [|i IH]; cbn [prun]; [cbn; intros; lia|].
  pose proof (prun_count n thr F i) as Hk.
  assert (Up : forall v, in_span n (Z.of_nat i) F v -> in_span n (Z.of_nat (S i)) F v).
  { intros v (d & E). exists (fun j => if j <? Z.of_nat i then d j else c0). intros p Hp. rewrite E by assumption. unfold comb.
    replace (Z.of_nat (S i)) with (Z.of_nat i + 1) by lia. rewrite zrange_snoc, map_app, rsum_app by lia. cbn [map]. rewrite rsum_cons, rsum_nil.
    replace (Z.of_nat i <? Z.of_nat i) with false by lia.
    rewrite (rsum_ext A (fun j => cmul (if j <? Z.of_nat i then d j else c0) (F j p)) (fun j => cmul (d j) (F j p))); [ring|].
    intros j Hj. apply in_zrange in Hj. now replace (j <? Z.of_nat i) with true by lia. }
  unfold pstep. set (w := sweepZ n (kk i) (QQ i) (F (Z.of_nat i))). destruct (kept thr n w); cbn [fst snd]; [|intros; apply Up; now apply IH].
  intros j Hj. unfold extend. destruct (j =? kk i) eqn:Ej; [|apply Up, IH; lia]. unfold unit_of. apply span_scale.
  apply (span_ext n _ F (resid n (kk i) (QQ i) (F (Z.of_nat i)))).
  - unfold leftover. apply span_sub; [apply span_elem; lia|]. apply span_comb; [lia|]. intros l Hl. apply Up, IH. exact Hl.
  - intros p Hp. symmetry. unfold w, sweepZ. rewrite sweep_resid; rewrite ?Z2Nat.id by lia; auto. apply prun_orth.
Qed.
End RealCase.
End Herm.
