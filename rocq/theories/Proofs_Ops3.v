From Verif Require Import Base BaseFacts Model_Index Model_View Model_Tensor Model_Ops Spec_Index Spec_View Spec_Tensor Spec_Ops
  Proofs_Axes Proofs_Index Proofs_View Proofs_View2 Proofs_Tensor Proofs_Tensor2 Proofs_Tensor3 Proofs_Ops Proofs_Ops2.
Local Open Scope Z_scope.

(* ---- index arithmetic of the Kronecker product ---- *)
Lemma kron_split dx : forall dy kx, nonneg dx -> nonneg dy -> length dy = length dx -> in_range kx (zipmul dx dy) ->
  in_range (zmap2 Z.div kx dy) dx /\ in_range (zmap2 Z.modulo kx dy) dy /\ zipadd (zipmul (zmap2 Z.div kx dy) dy) (zmap2 Z.modulo kx dy) = kx.
Proof.
  induction dx as [|a dx IH]; intros [|c dy] kx Hx Hy L Hk; try discriminate.
  - inversion Hk; subst. repeat split; constructor.
  - inversion Hk as [|k ? kx' ? Hk1 Hk2]; subst. inversion Hx; subst. inversion Hy; subst. injection L as L.
    destruct (IH dy kx') as (A & B & C); auto. cbn [zipmul zmap2 zipadd].
    assert (0 < c) by nia. split; [|split].
    + constructor; [|exact A]. split; [now apply Z.div_pos|]. apply Z.div_lt_upper_bound; [lia|]. lia.
    + constructor; [|exact B]. now apply Z.mod_pos_bound.
    + rewrite C. f_equal. rewrite Z.mul_comm. symmetry. now apply Z.div_mod; lia.
Qed.
Lemma kron_join dx : forall dy ix jx, length dy = length dx -> in_range ix dx -> in_range jx dy ->
  in_range (zipadd (zipmul ix dy) jx) (zipmul dx dy) /\
  zmap2 Z.div (zipadd (zipmul ix dy) jx) dy = ix /\ zmap2 Z.modulo (zipadd (zipmul ix dy) jx) dy = jx.
Proof.
  induction dx as [|a dx IH]; intros [|c dy] ix jx L Hi Hj; try discriminate.
  - inversion Hi; inversion Hj; subst. repeat split; constructor.
  - inversion Hi as [|i ? ix' ? Hi1 Hi2]; subst. inversion Hj as [|j ? jx' ? Hj1 Hj2]; subst. injection L as L.
    destruct (IH dy ix' jx') as (A & B & C); auto. cbn [zipmul zmap2 zipadd]. rewrite B, C. split; [|split].
    + constructor; [nia|exact A].
    + f_equal. rewrite Z.div_add_l by lia. rewrite Z.div_small by lia. lia.
    + f_equal. rewrite Z.add_comm, Z.mod_add by lia. now apply Z.mod_small.
Qed.
Lemma kron_fits dx : forall dy ix, nonneg dy -> length dy = length dx -> in_range ix dx ->
  Forall2 Z.le (zipadd (zipmul ix dy) dy) (zipmul dx dy).
Proof.
  induction dx as [|a dx IH]; intros [|c dy] ix Hy L Hi; try discriminate.
  - inversion Hi; subst. constructor.
  - inversion Hi as [|i ? ix' ? Hi1 Hi2]; subst. injection L as L. inversion Hy; subst. cbn. constructor; [nia|]. now apply IH.
Qed.
Lemma zipmul_length x : forall y, length y = length x -> length (zipmul x y) = length x.
Proof. induction x as [|a x IH]; intros [|c y] L; try discriminate; [reflexivity|]. cbn. f_equal. apply IH. now injection L. Qed.
Lemma zipmul_nonneg x : forall y, nonneg x -> nonneg y -> nonneg (zipmul x y).
Proof.
  unfold nonneg. induction x as [|a x IH]; intros [|c y] Hx Hy; cbn; try constructor; inversion Hx; inversion Hy; subst; [nia|auto].
Qed.
Lemma range_nonneg ix d : in_range ix d -> nonneg ix.
Proof. intro H. unfold nonneg. induction H; constructor; auto. lia. Qed.

(* ---- writing through a window of r ---- *)
Lemma window_keeps {V} (m m' : mem V) w r (f : list Z -> list Z) :
  (forall ix, in_range ix (vdims w) -> in_range (f ix) (vdims r) /\ vaddr w ix = vaddr r (f ix)) ->
  distinct_cells r -> untouched m m' w ->
  (forall kx, in_range kx (vdims r) -> (forall ix, in_range ix (vdims w) -> f ix <> kx) -> elem m' r kx = elem m r kx) /\ untouched m m' r.
Proof.
  intros H Hd U. split.
  - intros kx Hk Hn. apply (untouched_elem m m' w); try assumption. intros jx Hj E.
    destruct (H jx Hj) as [H1 H2]. apply (Hn jx Hj). apply Hd; congruence.
  - intros b a Hn. apply U. intros ix Hix. destruct (H ix Hix) as [H1 ->]. now apply Hn.
Qed.
Lemma window_elem {V} (m : mem V) w r (f : list Z -> list Z) :
  (forall ix, in_range ix (vdims w) -> in_range (f ix) (vdims r) /\ vaddr w ix = vaddr r (f ix)) ->
  forall ix, in_range ix (vdims w) -> elem m w ix = elem m r (f ix).
Proof. intros H ix Hix. unfold elem. destruct (H ix Hix) as [_ ->]. reflexivity. Qed.
Lemma untouched_trans {V} (m m1 m2 : mem V) r : untouched m m1 r -> untouched m1 m2 r -> untouched m m2 r.
Proof. intros A B b a H. rewrite B by assumption. now apply A. Qed.
Lemma zipadd_inj off : forall ix jx, length ix = length off -> length jx = length off -> zipadd off ix = zipadd off jx -> ix = jx.
Proof.
  induction off as [|o off IH]; intros [|i ix] [|j jx] L1 L2 E; try discriminate; [reflexivity|]. injection L1 as L1. injection L2 as L2.
  cbn in E. injection E as E1 E2. f_equal; [lia|]. now apply IH.
Qed.

Section RingFacts.
Context {R : cring}.
Add Ring RrOp3 : (cth R).
Notation memR := (mem (car R)).

(* one block of the Kronecker product *)
Lemma kron_step r x y ix (m : memR) : vwf r -> vwf x -> vwf y -> length (vdims y) = length (vdims x) -> vdims r = zipmul (vdims x) (vdims y) ->
  distinct_cells r -> readable m r -> readable m x -> readable m y -> disjoint_views r y ->
  in_range ix (vdims x) ->
  exists m', (do w <- block_at (vdims y) (zipmul ix (vdims y)) r; do c <- get_at x ix m; tv_addc w y c m) = Ok m' /\
    (forall kx v, in_range kx (vdims r) -> elem m r kx = Some v ->
       elem m' r kx = Some (if list_eq_dec Z.eq_dec (zmap2 Z.div kx (vdims y)) ix
                            then cadd v (cmul (elem0 m x ix) (elem0 m y (zmap2 Z.modulo kx (vdims y)))) else v)) /\
    untouched m m' r.
Proof.
  intros Wr Wx Wy L Dr Hd Rr Rx Ry Dy Hix. pose proof (proj2 Wx) as Nx. pose proof (proj2 Wy) as Ny.
  pose proof (in_range_length _ _ Hix) as Lix.
  destruct (C08_block_l r (vdims y) (zipmul ix (vdims y))) as (w & E & _ & Dw & Ww & Hw); try assumption.
  { apply zipmul_nonneg; [now apply (range_nonneg ix (vdims x))|assumption]. }
  { rewrite zipmul_length by congruence. congruence. }
  { rewrite Dr. now apply kron_fits. }
  assert (Hw' : forall i, in_range i (vdims w) -> in_range (zipadd (zipmul ix (vdims y)) i) (vdims r) /\
     vaddr w i = vaddr r (zipadd (zipmul ix (vdims y)) i)) by (intros i Hi; apply Hw; now rewrite <- Dw).
  clear Hw. rename Hw' into Hw. rewrite E. cbn [bind]. unfold get_at. rewrite vaddr_cell by (try assumption; apply Wx). cbn [bind].
  pose proof (readable_elem m x ix Rx Hix) as Ex. pose proof Ex as Ex'. rewrite elem_cell in Ex' by (try assumption; apply Wx).
  rewrite (loadA_some _ _ _ Ex'). cbn [bind]. unfold tv_addc. rewrite asz_refl by congruence. cbn [assrt].
  assert (Hdw : distinct_cells w).
  { intros i j Hi Hj Eij. destruct (Hw i Hi) as [H1 H2], (Hw j Hj) as [H3 H4].
    pose proof (in_range_length _ _ Hi). pose proof (in_range_length _ _ Hj).
    apply (zipadd_inj (zipmul ix (vdims y))); [rewrite zipmul_length by congruence; congruence..|]. apply Hd; congruence. }
  assert (Rw : readable m w).
  { intros i Hi. rewrite (window_elem m w r _ Hw i Hi). apply Rr. now apply Hw. }
  destruct (reg_or_each_ok (f_addc (elem0 m x ix)) w [y] m) as (m' & E' & Hel); try assumption.
  { constructor; [|constructor]. split; [assumption|]. split; [congruence|]. split; [assumption|].
    intros i j Hi Hj Eij. exfalso. destruct (Hw i Hi) as [H1 H2]. apply (Dy (zipadd (zipmul ix (vdims y)) i) j); try assumption. congruence. }
  rewrite E'. exists m'. split; [reflexivity|].
  destruct (window_keeps m m' w r _ Hw Hd (proj2 Hel)) as [K U]. split; [|exact U].
  intros kx v Hk Hv. rewrite Dr in Hk. destruct (kron_split (vdims x) (vdims y) kx Nx Ny L Hk) as (A & B & C).
  destruct (list_eq_dec Z.eq_dec (zmap2 Z.div kx (vdims y)) ix) as [Eq|Ne].
  - rewrite Eq in C. assert (Hm : in_range (zmap2 Z.modulo kx (vdims y)) (vdims w)) by (rewrite Dw; exact B).
    rewrite <- C at 1. rewrite <- (window_elem m' w r _ Hw) by assumption.
    rewrite (ew1 _ _ _ _ _ Hel _ v (elem0 m y (zmap2 Z.modulo kx (vdims y))) Hm).
    + reflexivity.
    + rewrite (window_elem m w r _ Hw) by assumption. now rewrite C.
    + now apply readable_elem.
  - rewrite K; [assumption|now rewrite Dr|]. intros i Hi Ei. apply Ne. rewrite <- Ei. rewrite Dw in Hi.
    now apply (kron_join (vdims x) (vdims y) ix i).
Qed.
Lemma kron_loop r x y (m : memR) : vwf r -> vwf x -> vwf y -> length (vdims y) = length (vdims x) -> vdims r = zipmul (vdims x) (vdims y) ->
  distinct_cells r -> readable m r -> readable m x -> readable m y -> disjoint_views r x -> disjoint_views r y ->
  exists m', foldM (fun ix m => do w <- block_at (vdims y) (zipmul ix (vdims y)) r; do c <- get_at x ix m; tv_addc w y c m) (all_indices (vdims x)) m = Ok m' /\
    (forall kx v, in_range kx (vdims r) -> elem m r kx = Some v ->
       elem m' r kx = Some (cadd v (cmul (elem0 m x (zmap2 Z.div kx (vdims y))) (elem0 m y (zmap2 Z.modulo kx (vdims y)))))) /\
    untouched m m' r.
Proof.
  intros Wr Wx Wy L Dr Hd Rr Rx Ry Dx Dy.
  destruct (foldM_inv (fun done (m' : memR) => readable m' r /\ untouched m m' r /\
     (forall kx v, in_range kx (vdims r) -> elem m r kx = Some v ->
       elem m' r kx = Some (if in_dec (list_eq_dec Z.eq_dec) (zmap2 Z.div kx (vdims y)) done
                            then cadd v (cmul (elem0 m x (zmap2 Z.div kx (vdims y))) (elem0 m y (zmap2 Z.modulo kx (vdims y)))) else v)))
     (fun ix m => do w <- block_at (vdims y) (zipmul ix (vdims y)) r; do c <- get_at x ix m; tv_addc w y c m) (all_indices (vdims x)) m)
    as (m' & E & A & U & V).
  - split; [assumption|]. split; [intros b a _; reflexivity|]. intros kx v Hk Hv. exact Hv.
  - intros done ix rest m1 El (A & U & V).
    assert (Hix : in_range ix (vdims x)) by (apply in_all_indices; rewrite El; apply in_or_app; right; now left).
    assert (Nin : ~ In ix done).
    { pose proof (all_indices_nodup (vdims x)) as Nd. rewrite El in Nd. apply NoDup_remove_2 in Nd. intro. apply Nd. apply in_or_app. now left. }
    destruct (kron_step r x y ix m1) as (m2 & E & V2 & U2); auto.
    { now apply (keep_readable r x m m1). } { now apply (keep_readable r y m m1). }
    exists m2. split; [exact E|].
    assert (V3 : forall kx v, in_range kx (vdims r) -> elem m r kx = Some v ->
       elem m2 r kx = Some (if in_dec (list_eq_dec Z.eq_dec) (zmap2 Z.div kx (vdims y)) (done ++ [ix])
                            then cadd v (cmul (elem0 m x (zmap2 Z.div kx (vdims y))) (elem0 m y (zmap2 Z.modulo kx (vdims y)))) else v)).
    { intros kx v Hk Hv. rewrite (V2 kx _ Hk (V kx v Hk Hv)). f_equal.
      assert (Hk' := Hk). rewrite Dr in Hk'. destruct (kron_split (vdims x) (vdims y) kx (proj2 Wx) (proj2 Wy) L Hk') as (K1 & K2 & _).
      rewrite (keep_elem0 r x m m1), (keep_elem0 r y m m1) by assumption.
      destruct (in_dec _ _ (done ++ [ix])) as [I|I]; destruct (in_dec _ _ done) as [I'|I'];
        destruct (list_eq_dec Z.eq_dec _ ix) as [Eq|Ne]; try reflexivity.
      - exfalso. now rewrite Eq in I'.
      - now rewrite Eq.
      - exfalso. apply in_app_or in I as [I|[I|[]]]; [auto|]. now apply Ne.
      - exfalso. apply I. apply in_or_app. now left.
      - exfalso. apply I. apply in_or_app. now left.
      - exfalso. apply I. apply in_or_app. right. now left. }
    split; [|split]; [|now apply (untouched_trans m m1)|exact V3].
    intros kx Hk. rewrite (V3 kx _ Hk (readable_elem m r kx Rr Hk)). discriminate.
  - exists m'. split; [exact E|]. split; [|exact U]. intros kx v Hk Hv. rewrite (V kx v Hk Hv).
    assert (Hk' := Hk). rewrite Dr in Hk'. destruct (kron_split (vdims x) (vdims y) kx (proj2 Wx) (proj2 Wy) L Hk') as (K1 & K2 & _).
    destruct (in_dec _ _ _) as [I|I]; [reflexivity|]. exfalso. apply I. now apply in_all_indices.
Qed.
Lemma loop_3 {S} (body : list Z -> S -> res S) n0 n1 n2 st :
  forZ n0 (fun a => forZ n1 (fun b => forZ n2 (fun c => body [a; b; c]))) st = foldM body (all_indices [n0; n1; n2]) st.
Proof.
  cbn [all_indices]. rewrite foldM_flat_map. unfold forZ. apply foldM_ext. intros a s _.
  rewrite foldM_map, foldM_flat_map. apply foldM_ext. intros b s' _.
  rewrite foldM_map, foldM_flat_map. apply foldM_ext. intros c s'' _. cbn.
  destruct (body [a; b; c] s''); reflexivity.
Qed.
Lemma tprod_ok r x y (m : memR) : vwf r -> vwf x -> vwf y -> length (vdims y) = length (vdims x) -> vdims r = zipmul (vdims x) (vdims y) ->
  (1 <= length (vdims x) <= 3)%nat ->
  distinct_cells r -> readable m r -> readable m x -> readable m y -> disjoint_views r x -> disjoint_views r y ->
  exists m', tv_add_tprod r x y m = Ok m' /\
    (forall kx v, in_range kx (vdims r) -> elem m r kx = Some v ->
       elem m' r kx = Some (cadd v (cmul (elem0 m x (zmap2 Z.div kx (vdims y))) (elem0 m y (zmap2 Z.modulo kx (vdims y)))))) /\
    untouched m m' r.
Proof.
  intros Wr Wx Wy L Dr Hl Hd Rr Rx Ry Dx Dy.
  destruct (kron_loop r x y m) as (m' & E & V & U); auto. exists m'. split; [|auto]. rewrite <- E.
  clear E V U. unfold tv_add_tprod, ndims. rewrite L, Z.eqb_refl. cbn [assrt]. rewrite Dr.
  destruct (vdims x) as [|x0 [|x1 [|x2 [|x3 dx]]]]; cbn [length] in Hl; try lia;
    destruct (vdims y) as [|y0 [|y1 [|y2 [|y3 dy]]]]; try discriminate; cbn [zipmul];
    unfold vget; cbn [zget nth_error Z.to_nat Z.ltb Z.compare bind Pos.to_nat Pos.iter_op Nat.add].
  - change (zget [x0 * y0] 0) with (Ok (x0 * y0)). cbn [bind]. rewrite !Z.eqb_refl. cbn [assrt].
    rewrite <- (loop_1 (fun ix m => do w <- block_at [y0] (zipmul ix [y0]) r; do c <- get_at x ix m; tv_addc w y c m)).
    unfold forZ. apply foldM_ext. intros i s _. unfold block1, ndims. rewrite Dr. reflexivity.
  - change (zget [x0 * y0; x1 * y1] 0) with (Ok (x0 * y0)). change (zget [x0 * y0; x1 * y1] 1) with (Ok (x1 * y1)).
    cbn [bind]. rewrite !Z.eqb_refl. cbn [assrt].
    now rewrite <- (loop_2 (fun ix m => do w <- block_at [y0; y1] (zipmul ix [y0; y1]) r; do c <- get_at x ix m; tv_addc w y c m)).
  - change (zget [x0 * y0; x1 * y1; x2 * y2] 0) with (Ok (x0 * y0)). change (zget [x0 * y0; x1 * y1; x2 * y2] 1) with (Ok (x1 * y1)).
    change (zget [x0 * y0; x1 * y1; x2 * y2] 2) with (Ok (x2 * y2)).
    cbn [bind]. rewrite !Z.eqb_refl. cbn [assrt].
    now rewrite <- (loop_3 (fun ix m => do w <- block_at [y0; y1; y2] (zipmul ix [y0; y1; y2]) r; do c <- get_at x ix m; tv_addc w y c m)).
Qed.
Lemma kron_new b x y (m : memR) : vwf x -> vwf y -> length (vdims y) = length (vdims x) -> (1 <= length (vdims x) <= 3)%nat ->
  readable m x -> readable m y -> (forall a, m b a = None) ->
  exists r m', op_kron b x y m = Ok (r, m') /\
    makes b m m' r (zipmul (vdims x) (vdims y))
      (fun kx => cmul (elem0 m x (zmap2 Z.div kx (vdims y))) (elem0 m y (zmap2 Z.modulo kx (vdims y)))).
Proof.
  intros Wx Wy L Hl Rx Ry Hb. unfold op_kron, dims_tprod. rewrite L, Nat.eqb_refl. cbn [assrt bind zeros].
  set (d := zipmul (vdims x) (vdims y)). assert (Hn : nonneg d) by (apply zipmul_nonneg; [apply Wx|apply Wy]).
  destruct (fresh_beside c0 b d m x Hn Wx Rx Hb) as (D1 & _ & E1 & R1).
  destruct (fresh_beside c0 b d m y Hn Wy Ry Hb) as (D2 & _ & E2 & R2).
  destruct (tprod_ok (fresh_view b d) x y (alloc c0 b (asize d) m)) as (m' & E & V & U); auto using fresh_vwf, fresh_distinct, fresh_rd.
  rewrite E. cbn [bind]. eexists _, m'. split; [reflexivity|]. eapply makes_fresh; eauto.
  intros kx Hk. rewrite (V kx c0); [|exact Hk|now apply fresh_readable].
  destruct (kron_split (vdims x) (vdims y) kx (proj2 Wx) (proj2 Wy) L Hk) as (K1 & K2 & _).
  f_equal. unfold elem0. rewrite E1, E2 by assumption. ring.
Qed.
(* above rank 3 the product is silently zero *)
Lemma kron_high b x y (m : memR) : vwf x -> vwf y -> length (vdims y) = length (vdims x) -> (length (vdims x) = 0 \/ 4 <= length (vdims x))%nat ->
  exists r m', op_kron b x y m = Ok (r, m') /\ makes b m m' r (zipmul (vdims x) (vdims y)) (fun _ => c0).
Proof.
  intros Wx Wy L Hl. unfold op_kron, dims_tprod. rewrite L, Nat.eqb_refl. cbn [assrt bind zeros].
  set (d := zipmul (vdims x) (vdims y)). assert (Hn : nonneg d) by (apply zipmul_nonneg; [apply Wx|apply Wy]).
  assert (tv_add_tprod (fresh_view b d) x y (alloc c0 b (asize d) m) = Ok (alloc c0 b (asize d) m)) as ->.
  { unfold tv_add_tprod, ndims. rewrite L, Z.eqb_refl. cbn [assrt].
    destruct (vdims x) as [|? [|? [|? [|? ?]]]]; cbn [length] in Hl; try lia; [reflexivity|].
    destruct (vdims y) as [|? [|? [|? [|? ?]]]]; try discriminate. reflexivity. }
  cbn [bind]. eexists _, _. split; [reflexivity|]. eapply makes_fresh; eauto; [intros ? ? _; reflexivity|].
  intros kx Hk. now apply fresh_readable.
Qed.
End RingFacts.
