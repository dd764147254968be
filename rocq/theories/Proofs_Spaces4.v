From Coq Require Import Reals Lra.
From Verif Require Import Base BaseFacts Model_Index Model_View Model_Tensor Model_Ops Model_CView Model_Spaces
  Spec_Index Spec_View Spec_Tensor Spec_Ops Spec_Spaces Proofs_Axes Proofs_Index Proofs_View Proofs_View2 Proofs_Tensor Proofs_Tensor2 Proofs_Tensor3 Proofs_Ops
  Proofs_Program Proofs_Sparse Proofs_Spaces Proofs_Spaces2 Proofs_Spaces3.
Local Open Scope Z_scope.

(* the transposed view: its columns are the rows *)
Definition flip (r : view) : view :=
  match vdims r, vstr r with [n; m], [s0; s1] => View (vblk r) (voff r) [m; n] [s1; s0] | _, _ => r end.
Lemma flip_gmat r n m : gmat r n m -> gmat (flip r) m n /\ vblk (flip r) = vblk r /\ (forall i, row i r = col i (flip r)) /\ (forall p i, vaddr (flip r) [p; i] = vaddr r [i; p]).
Proof.
  intro G. destruct (gmat_str r n m G) as (s0 & s1 & S & N0 & N1 & Pn & Pm). destruct G as (D & W & N & Dc).
  unfold flip. rewrite D, S.
  assert (V : forall p i, vaddr (View (vblk r) (voff r) [m; n] [s1; s0]) [p; i] = vaddr r [i; p]).
  { intros p i. unfold vaddr, offs. rewrite S. cbn. do 2 f_equal. lia. }
  split; [|split; [reflexivity|split; [|exact V]]].
  - split; [reflexivity|]. split; [split; [reflexivity|repeat constructor; assumption]|]. split; [repeat constructor; assumption|].
    intros ix jx Hx Hy E. cbn in Hx, Hy. apply in_range2' in Hx as (p & i & -> & Hp & Hi). apply in_range2' in Hy as (q & j & -> & Hq & Hj).
    rewrite !V in E. apply Dc in E; [injection E as -> ->; reflexivity| |]; rewrite D; apply in_range2; lia.
  - intro i. unfold row, col. rewrite D, S. reflexivity.
Qed.

Section Herm.
Context {H : hfield}.
Notation A := (hr H).
Notation memA := (mem (car A)).
Notation resid := (leftover H).
Notation in_span := (spanned H).
Add Ring RrSp4 : (cth A).

Lemma filled_vals b n f (m : memA) : 0 <= n -> vals (snd (filled H b n f m)) (fresh_view b [n]) n f.
Proof.
  intros Hn p Hp. unfold elem, filled. cbn. unfold vaddr, offs. cbn. rewrite Z.eqb_refl.
  replace ((0 <=? _) && (_ <? n)) with true; [f_equal; f_equal|]; destruct p; lia.
Qed.
Lemma filled_other b n f (m : memA) b' a : b' <> b -> snd (filled H b n f m) b' a = m b' a.
Proof. intro Nb. cbn. now replace (b' =? b) with false by lia. Qed.
Lemma cols_other m m' M n k F : columns H m M n k F -> (forall a, m' (vblk M) a = m (vblk M) a) -> columns H m' M n k F.
Proof.
  intros (D & V) E. split; [exact D|]. intros p i Hp Hi. rewrite <- (V p i Hp Hi). unfold elem.
  destruct (vaddr M [p; i]) as [[b a]| |] eqn:Ea; try reflexivity. apply vaddr_blk in Ea. cbn in Ea. subst b. apply E.
Qed.
Lemma vals_other m m' c n f : vals (H := H) m c n f -> (forall a, m' (vblk c) a = m (vblk c) a) -> vals m' c n f.
Proof.
  intros V E p Hp. rewrite <- (V p Hp). unfold elem.
  destruct (vaddr c [p]) as [[b a]| |] eqn:Ea; try reflexivity. apply vaddr_blk in Ea. cbn in Ea. subst b. apply E.
Qed.
Lemma untouched_blk {V} (m m' : mem V) c b a : untouched m m' c -> b <> vblk c -> m' b a = m b a.
Proof. intros U Nb. apply U. intros ix _ E. apply vaddr_blk in E. cbn in E. congruence. Qed.

(* u*c, in a block that is used again *)
Lemma times_vec bt u n f s (m : memA) : 0 <= n -> gvec u n -> vblk u <> bt -> vals m u n f ->
  exists m', op_times bt u s m = Ok (fresh_view bt [n], m') /\ vals m' (fresh_view bt [n]) n (fun p => cmul s (f p)) /\
    (forall b a, b <> bt -> m' b a = m b a).
Proof.
  intros Hn Gu Nb V. unfold op_times, zeros. rewrite (proj1 Gu). set (m1 := Model_Tensor.alloc c0 bt (asize [n]) m).
  assert (V1 : vals m1 u n f) by (eapply vals_other; [exact V|]; intro a; now apply alloc_other).
  assert (V0 : vals m1 (fresh_view bt [n]) n (fun _ => c0)).
  { intros p Hp. apply fresh_readable; [repeat constructor; assumption|]. now apply in_range1. }
  pose proof (gvec_fresh bt n Hn) as Gw.
  assert (Dj : disjoint_views (fresh_view bt [n]) u) by (apply (vec_disjoint _ u n n); auto).
  destruct (vec_addc (fresh_view bt [n]) u n (fun _ => c0) f s m1 Gw Gu Dj V0 V1) as (m' & E & V' & U). rewrite E. cbn [bind].
  exists m'. split; [reflexivity|]. split.
  - eapply vals_ext; [exact V'|]. intros p Hp. cbn. ring.
  - intros b a Hb. rewrite (untouched_blk m1 m' _ b a U) by exact Hb. now apply alloc_other.
Qed.

(* the rows of the result, as functions *)
Fixpoint qrun (N : Z) (F : Z -> Z -> A) (i : nat) : Z -> Z -> A :=
  match i with
  | O => fun _ _ => c0
  | S i' => extend (Z.of_nat i') (qrun N F i') (unit_of N (resid N (Z.of_nat i') (qrun N F i') (F (Z.of_nat i'))))
  end.
Definition rest (N : Z) (F : Z -> Z -> A) (i : nat) : Z -> A := resid N (Z.of_nat i) (qrun N F i) (F (Z.of_nat i)).
Lemma qrun_zero N F i j p : Z.of_nat i <= j -> qrun N F i j p = c0.
Proof. induction i as [|i IH]; intro Hj; cbn [qrun]; [reflexivity|]. unfold extend. replace (j =? Z.of_nat i) with false by lia. apply IH. lia. Qed.
Lemma qrun_mono N F i i' j p : (i <= i')%nat -> j < Z.of_nat i -> qrun N F i' j p = qrun N F i j p.
Proof.
  intros Hi Hj. induction Hi as [|i' Hi IH]; [reflexivity|]. cbn [qrun]. unfold extend. replace (j =? Z.of_nat i') with false by lia. exact IH.
Qed.
Lemma qrun_orth N F i : (forall j, (j < i)%nat -> len2 H N (rest N F j) <> 0%R) -> orthonormal H N (Z.of_nat i) (qrun N F i).
Proof.
  induction i as [|i IH]; intro K; [intros a b Ha; cbn in Ha; lia|]. cbn [qrun].
  assert (O : orthonormal H N (Z.of_nat i) (qrun N F i)) by (apply IH; intros; apply K; lia).
  replace (Z.of_nat (S i)) with (Z.of_nat i + 1) by lia. apply orthonormal_extend; [exact O| |].
  - apply unit_len. apply K. lia.
  - intros j Hj. unfold unit_of. rewrite ip_scale_r, resid_orth by assumption. ring.
Qed.

Lemma ru_step_ok r N F b bv bt i (m : memA) : 0 <= N -> gmat r N N -> vblk r = b -> b <> bv -> b <> bt -> bv <> bt -> (i < Z.to_nat N)%nat ->
  (forall j, (j < i)%nat -> len2 H N (rest N F j) <> 0%R) ->
  columns H m (flip r) N N (qrun N F i) ->
  (len2 H N (rest N F i) <> 0%R /\ exists m', ru_step H r N F bv bt (Z.of_nat i) m = Ok m' /\ columns H m' (flip r) N N (qrun N F (S i)) /\
     (forall b' a, b' <> b -> b' <> bv -> b' <> bt -> m' b' a = m b' a)) \/
  (len2 H N (rest N F i) = 0%R /\ ru_step H r N F bv bt (Z.of_nat i) m = UB).
Proof.
  intros HN Gr Br N1 N2 N3 Hi K C. destruct (flip_gmat r N N Gr) as (Gf & Bf & Er & Av). pose proof (qrun_orth N F i K) as O.
  unfold ru_step. destruct (filled H bv N (F (Z.of_nat i)) m) as [v m0] eqn:Ef.
  assert (Ev : v = fresh_view bv [N]) by (unfold filled in Ef; congruence).
  assert (Em : m0 = snd (filled H bv N (F (Z.of_nat i)) m)) by now rewrite Ef. clear Ef. subst v.
  pose proof (gvec_fresh bv N HN) as Gv. set (v := fresh_view bv [N]) in *.
  assert (V0 : vals m0 v N (F (Z.of_nat i))) by (subst m0; now apply filled_vals).
  assert (C0 : columns H m0 (flip r) N N (qrun N F i)).
  { eapply cols_other; [exact C|]. intro a. subst m0. apply filled_other. congruence. }
  destruct (forZ_inv (fun j m' => vals m' v N (resid N j (qrun N F i) (F (Z.of_nat i))) /\
      (forall b' a, b' <> bv -> b' <> bt -> m' b' a = m0 b' a)) (Z.of_nat i)
    (fun j m => do u <- row j r; do s <- tv_hinp H u v m; do ' (w, m') <- op_times bt u s m; tv_sub v w m') m0) as (m1 & E1 & V1 & U1).
  - lia.
  - split; [|reflexivity]. eapply vals_ext; [exact V0|]. intros p Hp. unfold leftover, comb. cbn. rewrite rsum_nil. ring.
  - intros j m1 Hj (V1 & U1). rewrite Er. destruct (col_ok (flip r) N N j Gf ltac:(lia)) as (u & Eu & Gu & Bu & Au). rewrite Eu. cbn [bind].
    assert (C1 : columns H m1 (flip r) N N (qrun N F i)).
    { eapply cols_other; [exact C0|]. intro a. apply U1; congruence. }
    assert (Vu : vals m1 u N (qrun N F i j)) by (eapply cols_vals; eauto; lia).
    rewrite (vec_inp u v N _ _ m1 Gu Gv Vu V1). cbn [bind].
    destruct (times_vec bt u N (qrun N F i j) (ip H N (qrun N F i j) (resid N j (qrun N F i) (F (Z.of_nat i)))) m1 HN Gu ltac:(congruence) Vu) as (m2 & E2 & V2 & U2).
    rewrite E2. cbn [bind].
    assert (V2' : vals m2 v N (resid N j (qrun N F i) (F (Z.of_nat i)))) by (eapply vals_other; [exact V1|]; intro a; apply U2; cbn; congruence).
    assert (Dj : disjoint_views v (fresh_view bt [N])) by (apply (vec_disjoint _ _ N N); auto using gvec_fresh).
    destruct (vec_sub v (fresh_view bt [N]) N _ _ m2 Gv (gvec_fresh bt N HN) Dj V2' V2) as (m3 & E3 & V3 & U3).
    exists m3. split; [exact E3|]. split.
    + eapply vals_ext; [exact V3|]. intros p Hp. cbn beta. apply resid_step; [lia|]. intros x y Hx Hy. apply O; lia.
    + intros b' a Hb1 Hb2. rewrite (untouched_blk m2 m3 v b' a U3) by exact Hb1. rewrite U2 by assumption. now apply U1.
  - rewrite E1. cbn [bind]. fold (rest N F i) in V1. rewrite (vec_norm v N _ m1 Gv V1). cbn [bind].
    destruct (Req_EM_T (sqrt (len2 H N (rest N F i))) 0) as [Z0|NZ].
    + right. split; [|reflexivity]. apply sqrt_eq_0; [apply len2_pos|exact Z0].
    + left. split; [intro Z0; apply NZ; rewrite Z0; apply sqrt_0|].
      rewrite Er. destruct (col_ok (flip r) N N (Z.of_nat i) Gf ltac:(lia)) as (u & Eu & Gu & Bu & Au). rewrite Eu. cbn [bind].
      assert (C1 : columns H m1 (flip r) N N (qrun N F i)).
      { eapply cols_other; [exact C0|]. intro a. apply U1; congruence. }
      assert (Vu : vals m1 u N (qrun N F i (Z.of_nat i))) by (eapply cols_vals; eauto; lia).
      assert (Dj : disjoint_views u v) by (apply (vec_disjoint _ _ N N); auto; cbn; congruence).
      destruct (vec_addc u v N _ _ (hinj H (1 / sqrt (len2 H N (rest N F i)))%R) m1 Gu Gv Dj Vu V1) as (m2 & E2 & V2 & U2).
      exists m2. split; [exact E2|]. split.
      * eapply cols_ext; [apply (cols_put m1 m2 (flip r) N N _ u (Z.of_nat i) _ Gf C1 ltac:(lia) Gu Au V2 U2)|].
        intros j p Hj Hp. cbn [qrun]. unfold extend. destruct (j =? Z.of_nat i); [|reflexivity]. rewrite qrun_zero by lia. unfold unit_of, rest. ring.
      * intros b' a Hb1 Hb2 Hb3. rewrite (untouched_blk m1 m2 u b' a U2) by congruence. rewrite U1 by assumption. subst m0. apply filled_other. assumption.
Qed.

Lemma ru_loop r N F b bv bt (m : memA) : 0 <= N -> gmat r N N -> vblk r = b -> b <> bv -> b <> bt -> bv <> bt ->
  columns H m (flip r) N N (fun _ _ => c0) -> forall i, (i <= Z.to_nat N)%nat ->
  ((forall j, (j < i)%nat -> len2 H N (rest N F j) <> 0%R) /\ exists m', forZ (Z.of_nat i) (ru_step H r N F bv bt) m = Ok m' /\
     columns H m' (flip r) N N (qrun N F i) /\ (forall b' a, b' <> b -> b' <> bv -> b' <> bt -> m' b' a = m b' a)) \/
  (exists j, (j < i)%nat /\ len2 H N (rest N F j) = 0%R /\ (forall l, (l < j)%nat -> len2 H N (rest N F l) <> 0%R)) /\
     forZ (Z.of_nat i) (ru_step H r N F bv bt) m = UB.
Proof.
  intros HN Gr Br N1 N2 N3 C0. induction i as [|i IH]; intro Hi.
  - left. split; [lia|]. exists m. split; [reflexivity|]. split; [exact C0|reflexivity].
  - unfold forZ in *. replace (Z.of_nat (S i)) with (Z.of_nat i + 1) by lia. rewrite zrange_snoc, foldM_app by lia.
    destruct IH as [(K & m1 & E1 & C1 & U1)|((j & Hj & Z0 & K) & E1)]; [lia| |].
    + rewrite E1. cbn [bind foldM]. destruct (ru_step_ok r N F b bv bt i m1 HN Gr Br N1 N2 N3 Hi K C1) as [(NZ & m2 & E2 & C2 & U2)|(Z0 & E2)]; rewrite E2; cbn [bind].
      * left. split.
        { intros j Hj. destruct (Nat.eq_dec j i) as [->|]; [exact NZ|apply K; lia]. }
        exists m2. split; [reflexivity|]. split; [exact C2|]. intros b' a B1 B2 B3. rewrite U2 by assumption. now apply U1.
      * right. split; [|reflexivity]. exists i. split; [lia|]. split; [exact Z0|exact K].
    + right. rewrite E1. split; [|reflexivity]. exists j. split; [lia|]. split; [exact Z0|exact K].
Qed.

(* ---- when is the rest 0 ---- *)
Lemma span_up N F i v : in_span N (Z.of_nat i) F v -> in_span N (Z.of_nat (S i)) F v.
Proof.
  intros (d & E). exists (fun j => if j <? Z.of_nat i then d j else c0). intros p Hp. rewrite E by assumption. unfold comb.
  replace (Z.of_nat (S i)) with (Z.of_nat i + 1) by lia. rewrite zrange_snoc, map_app, rsum_app by lia. cbn [map]. rewrite rsum_cons, rsum_nil.
  replace (Z.of_nat i <? Z.of_nat i) with false by lia.
  rewrite (rsum_ext A (fun j => cmul (if j <? Z.of_nat i then d j else c0) (F j p)) (fun j => cmul (d j) (F j p))); [ring|].
  intros j Hj. apply in_zrange in Hj. now replace (j <? Z.of_nat i) with true by lia.
Qed.
Lemma span_ups N F i i' v : (i <= i')%nat -> in_span N (Z.of_nat i) F v -> in_span N (Z.of_nat i') F v.
Proof. induction 1; auto using span_up. Qed.
Lemma qrun_span N F i : forall j, 0 <= j < Z.of_nat i -> in_span N (Z.of_nat i) F (qrun N F i j).
Proof.
  induction i as [|i IH]; intros j Hj; [lia|]. cbn [qrun]. unfold extend. destruct (j =? Z.of_nat i) eqn:Ej.
  - unfold unit_of. apply span_scale. unfold leftover. apply span_sub; [apply span_elem; lia|]. apply span_comb; [lia|]. intros l Hl. apply span_up, IH. exact Hl.
  - apply span_up, IH. lia.
Qed.
Lemma span_trans N k m Q F v : 0 <= k -> in_span N k Q v -> (forall j, 0 <= j < k -> in_span N m F (Q j)) -> in_span N m F v.
Proof. intros Hk (d & E) K. eapply span_ext; [apply (span_comb N m F k d Q Hk K)|]. intros p Hp. symmetry. now apply E. Qed.
Lemma draw_span N F i : (forall j, (j < i)%nat -> len2 H N (rest N F j) <> 0%R) -> forall j, 0 <= j < Z.of_nat i -> in_span N (Z.of_nat i) (qrun N F i) (F j).
Proof.
  intros K j Hj. set (jn := Z.to_nat j). assert (Ej : j = Z.of_nat jn) by lia. specialize (K jn ltac:(lia)).
  set (w := rest N F jn) in *. set (l := sqrt (len2 H N w)).
  assert (Hl : (0 < l)%R) by (apply sqrt_lt_R0; pose proof (len2_pos N w); lra).
  (* F j = l q_j + projections *)
  apply (span_ext N _ _ (fun p => csub (cmul (hinj H l) (qrun N F i j p)) (cmul (copp c1) (comb H j (fun x => ip H N (qrun N F i x) (F j)) (qrun N F i) p)))).
  - apply span_sub; [apply span_scale, span_elem; lia|]. apply span_scale. apply span_comb; [lia|]. intros x Hx. apply span_elem. lia.
  - intros p Hp. assert (E : qrun N F i j p = cmul (hinj H (1 / l)%R) (w p)).
    { rewrite (qrun_mono N F (S jn) i j p) by lia. cbn [qrun]. unfold extend. replace (j =? Z.of_nat jn) with true by lia. reflexivity. }
    rewrite E. replace (cmul (hinj H l) (cmul (hinj H (1 / l)%R) (w p))) with (w p).
    2:{ replace (cmul (hinj H l) (cmul (hinj H (1 / l)%R) (w p))) with (cmul (cmul (hinj H l) (hinj H (1 / l)%R)) (w p)) by ring.
        rewrite <- hinj_mul. replace (l * (1 / l))%R with 1%R by (field; lra). rewrite hinj_1. ring. }
    unfold w, rest, leftover. rewrite <- Ej.
    replace (comb H j (fun x => ip H N (qrun N F i x) (F j)) (qrun N F i) p) with (comb H j (fun x => ip H N (qrun N F jn x) (F j)) (qrun N F jn) p); [ring|].
    apply rsum_ext. intros x Hx. apply in_zrange in Hx. rewrite (qrun_mono N F jn i x p) by lia. f_equal. apply ip_ext; [|reflexivity].
    intros q _. symmetry. apply qrun_mono; lia.
Qed.
Lemma rest_zero N F i : (forall j, (j < i)%nat -> len2 H N (rest N F j) <> 0%R) ->
  (len2 H N (rest N F i) = 0%R <-> in_span N (Z.of_nat i) F (F (Z.of_nat i))).
Proof.
  intro K. pose proof (qrun_orth N F i K) as O. split.
  - intro E. apply (span_ext N _ _ (comb H (Z.of_nat i) (fun j => ip H N (qrun N F i j) (F (Z.of_nat i))) (qrun N F i))).
    + apply span_comb; [lia|]. apply qrun_span.
    + intros p Hp. pose proof (len2_0 N _ E p Hp) as E1. unfold rest, leftover in E1.
      replace (F (Z.of_nat i) p) with (cadd (csub (F (Z.of_nat i) p) (comb H (Z.of_nat i) (fun j => ip H N (qrun N F i j) (F (Z.of_nat i))) (qrun N F i) p))
        (comb H (Z.of_nat i) (fun j => ip H N (qrun N F i j) (F (Z.of_nat i))) (qrun N F i) p)) by ring. rewrite E1. ring.
  - intro Sp. apply (span_trans N (Z.of_nat i) (Z.of_nat i) F (qrun N F i)) in Sp; [|lia|now apply draw_span]. destruct Sp as (d & E).
    apply (hinj_eq H). rewrite ip_len2, hinj_0. unfold rest.
    rewrite (ip_ext N _ (resid N (Z.of_nat i) (qrun N F i) (F (Z.of_nat i))) _ (fun _ => c0)); [apply ip_zero_r|reflexivity|].
    intros p Hp. unfold leftover. rewrite (E p Hp). replace (comb H (Z.of_nat i) (fun j => ip H N (qrun N F i j) (F (Z.of_nat i))) (qrun N F i) p) with (comb H (Z.of_nat i) d (qrun N F i) p); [ring|].
    apply rsum_ext. intros j Hj. apply in_zrange in Hj. f_equal. symmetry.
    rewrite (ip_ext N _ (qrun N F i j) _ (comb H (Z.of_nat i) d (qrun N F i))) by auto. now apply ip_comb_basis.
Qed.
Lemma all_rest N F i : (forall j, (j < i)%nat -> ~ in_span N (Z.of_nat j) F (F (Z.of_nat j))) -> forall j, (j < i)%nat -> len2 H N (rest N F j) <> 0%R.
Proof.
  intros K j. induction j as [j IH] using lt_wf_ind. intros Hj E. apply (K j Hj). apply rest_zero; [|exact E]. intros l Hl. apply IH; lia.
Qed.
End Herm.
