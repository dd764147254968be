From Verif Require Import Base BaseFacts Map Model_Index Model_View Model_Tensor Model_Containers Model_Gather Model_Gather2 Proofs_Containers2 Proofs_Containers3
  Spec_Index Spec_View Spec_Tensor Spec_Gather Proofs_Axes Proofs_Index Proofs_View Proofs_Tensor Proofs_Tensor2 Accum Proofs_Gather Proofs_Gather2 Proofs_Gather3 Proofs_Program Proofs_Program2.
Local Open Scope Z_scope.
Section S7.
Context {R : cring}.
Add Ring RrP3 : (cth R).
Notation memR := (mem (car R)).
(* windows of rows *)
Lemma rows_mat (m : memR) v N K X i n : mat m v N K X -> 0 <= i -> 0 <= n -> i + n <= N -> exists v', rows i n v = Ok v' /\ mat m v' n K (fun a k => X (i + a) k) /\
  (forall a k, vaddr v' [a; k] = vaddr v [i + a; k]) /\ vdims v' = [n; K].
Proof.
  intros (D & L & H) Hi Hn Hin. destruct v as [b o d s]. cbn in D, L. subst d. destruct s as [|s0 [|s1 [|]]]; try discriminate.
  unfold rows. cbn [vdims vstr vblk voff]. replace (i + n <=? N) with true by lia. cbn [assrt]. eexists. split; [reflexivity|].
  assert (V : forall a k, vaddr (View b (o + s0 * i) [n; K] [s0; s1]) [a; k] = vaddr (View b o [N; K] [s0; s1]) [i + a; k]).
  { intros a k. unfold vaddr. cbn. replace (o + s0 * i + (s0 * a + (s1 * k + 0))) with (o + (s0 * (i + a) + (s1 * k + 0))) by ring. reflexivity. }
  split; [|auto]. split; [reflexivity|]. split; [reflexivity|]. intros a k Ha Hk. unfold elem. rewrite V. apply H; lia.
Qed.
Lemma gathered_shift oo io es (X : Z -> Z -> R) i k : gathered (map (shift oo io) es) X i k = gathered es (fun a k => X (io + a) k) (i - oo) k.
Proof.
  rewrite !gathered_sum, map_map. apply rsum_ext. intros e _. unfold shift. cbn. destruct (fst e =? i - oo) eqn:E; [replace (oo + fst e =? i) with true by lia|replace (oo + fst e =? i) with false by lia]; reflexivity.
Qed.
Lemma gathered_app es es' (X : Z -> Z -> R) i k : gathered (es ++ es') X i k = cadd (gathered es X i k) (gathered es' X i k).
Proof. rewrite !gathered_sum, map_app. apply rsum_app. Qed.
Lemma gathered_none es (X : Z -> Z -> R) i k : (forall e, In e es -> fst e <> i) -> gathered es X i k = c0.
Proof. intro H. rewrite gathered_sum. apply rsum_zero. intros e He. specialize (H e He). now replace (fst e =? i) with false by lia. Qed.
(* one map of a pack *)
Lemma block_ok (m : memR) r x g es N Nx K A X oo io : mat m r N K A -> mat m x Nx K X -> distinct_cells r -> disjoint_views r x -> one_col g -> map_entries g es ->
  0 <= oo -> 0 <= gout g -> oo + gout g <= N -> 0 <= io -> 0 <= gin g -> io + gin g <= Nx -> within (gout g) (gin g) es ->
  exists rr xx m', rows oo (gout g) r = Ok rr /\ rows io (gin g) x = Ok xx /\ gather_rows rr xx g m = Ok m' /\
    mat m' r N K (fun i k => cadd (A i k) (gathered (map (shift oo io) es) X i k)) /\ mat m' x Nx K X /\ untouched m m' r.
Proof.
  intros Mr Mx Dr Dx Oc Me H1 H2 H3 H4 H5 H6 W. destruct (rows_mat _ _ _ _ _ _ _ Mr H1 H2 H3) as (rr & Er & Mrr & Vr & Dr').
  destruct (rows_mat _ _ _ _ _ _ _ Mx H4 H5 H6) as (xx & Ex & Mxx & Vx & Dx').
  assert (Rr := proj1 Mr). assert (Rx := proj1 Mx).
  destruct (gather_mat m rr xx g es _ _ _ _ _ Mrr Mxx) as (m' & E & M' & U); auto.
  - intros ix jx Hi Hj Ea. rewrite Dr' in Hi, Hj. apply in_range2 in Hi, Hj. destruct Hi as (a & k & -> & Ha & Hk), Hj as (a' & k' & -> & Ha' & Hk').
    rewrite !Vr in Ea. assert (Q : [oo + a; k] = [oo + a'; k']) by (apply Dr; rewrite ?Rr, ?range2; auto; lia). injection Q as Q ->. f_equal. lia.
  - intros ix jx Hi Hj. rewrite Dr' in Hi. rewrite Dx' in Hj. apply in_range2 in Hi, Hj. destruct Hi as (a & k & -> & Ha & Hk), Hj as (a' & k' & -> & Ha' & Hk').
    rewrite Vr, Vx. apply Dx; rewrite ?Rr, ?Rx, ?range2; lia.
  - exists rr, xx, m'. split; [assumption|]. split; [assumption|]. split; [assumption|].
    assert (U' : untouched m m' r).
    { intros b a Hno. apply U. intros ix Hix Ea. rewrite Dr' in Hix. apply in_range2 in Hix. destruct Hix as (i & k & -> & Hi & Hk). rewrite Vr in Ea. apply (Hno [oo + i; k]); auto. rewrite Rr, range2. lia. }
    split; [|split; [now apply (mat_untouched m m' r)|assumption]].
    destruct Mr as (_ & Lr & Hr). split; [assumption|]. split; [assumption|]. intros i k Hi Hk. rewrite gathered_shift.
    destruct (Z_lt_ge_dec i oo) as [Lo|Lo]; [|destruct (Z_lt_ge_dec i (oo + gout g)) as [Hi'|Hi']].
    2:{ destruct M' as (_ & _ & M'). specialize (M' (i - oo) k ltac:(lia) Hk). unfold elem in *. rewrite Vr in M'. replace (oo + (i - oo)) with i in M' by lia. exact M'. }
    all: rewrite gathered_none by (intros e He; destruct (W e He); lia); replace (cadd (A i k) c0) with (A i k) by ring; rewrite <- (Hr i k Hi Hk);
      unfold elem; destruct (vaddr r [i; k]) as [[b a]| |] eqn:Ev; auto; apply U; intros ix Hix Ea; rewrite Dr' in Hix; apply in_range2 in Hix;
      destruct Hix as (a' & k' & -> & Ha' & Hk'); rewrite Vr in Ea; assert (Q : [oo + a'; k'] = [i; k]) by (apply Dr; rewrite ?Rr, ?range2; [lia|lia|congruence]); injection Q as Q _; lia.
Qed.
Fixpoint offsets (o : Z) (l : list Z) : list Z := match l with [] => [] | a :: l' => o :: offsets (o + a) l' end.
Definition total (l : list Z) : Z := fold_right Z.add 0 l.
Definition gok (g : gmap) (es : list (Z * Z)) : Prop := one_col g /\ map_entries g es /\ 0 <= gout g /\ 0 <= gin g /\ within (gout g) (gin g) es.
Lemma pack_loop r x N Nx K : distinct_cells r -> disjoint_views r x -> forall gs ess, Forall2 gok gs ess -> forall oo io (m : memR) A X,
  0 <= oo -> 0 <= io -> oo + total (map gout gs) <= N -> io + total (map gin gs) <= Nx -> mat m r N K A -> mat m x Nx K X ->
  exists m', foldM (fun gio m => let '(g, io, oo) := gio in
              do rr <- rows oo (gout g) r; do xx <- rows io (gin g) x; gather_rows rr xx g m)
              (combine (combine gs (offsets io (map gin gs))) (offsets oo (map gout gs))) m = Ok m' /\
    mat m' r N K (fun i k => cadd (A i k) (gathered (stacked oo io gs ess) X i k)) /\ untouched m m' r.
Proof.
  intros Dr Dx gs ess F. induction F as [|g es gs ess (Oc & Me & G1 & G2 & W) F IH]; intros oo io m A X Ho Hi Lo Li Mr Mx.
  - exists m. split; [reflexivity|]. split; [|intros b a _; reflexivity]. destruct Mr as (D & L & H). split; [assumption|]. split; [assumption|]. intros i k H1 H2. rewrite H by assumption.
    rewrite gathered_none by (intros ? []). f_equal. ring.
  - assert (T1 : 0 <= total (map gout gs) /\ 0 <= total (map gin gs)).
    { clear - F. induction F as [|g es gs ess (_ & _ & G1 & G2 & _) F IH]; [cbn; lia|]. unfold total in *. cbn [map fold_right]. lia. }
    cbn [map total fold_right] in Lo, Li. fold (total (map gout gs)) (total (map gin gs)) in Lo, Li. cbn [map offsets combine foldM].
    destruct (block_ok m r x g es N Nx K A X oo io) as (rr & xx & m1 & E1 & E2 & E3 & M1 & Mx1 & U1); auto; try lia. rewrite E1. cbn [bind]. rewrite E2. cbn [bind]. rewrite E3. cbn [bind].
    destruct (IH (oo + gout g) (io + gin g) m1 _ X ltac:(lia) ltac:(lia) ltac:(lia) ltac:(lia) M1 Mx1) as (m' & E & M' & U'). exists m'. split; [exact E|]. split.
    + destruct M' as (D & L & H). split; [assumption|]. split; [assumption|]. intros i k H1 H2. rewrite H by assumption. f_equal. cbn [stacked]. rewrite gathered_app. ring.
    + intros b a Hno. rewrite U' by assumption. now apply U1.
Qed.
Lemma pack_vec_ok gs : gs <> [] -> (forall g, In g gs -> one_col g /\ gin g = gin (hd (gm_new 0 0) gs)) ->
  pack_of_vector gs = Ok (GPack gs (offsets 0 (map gin gs)) (offsets 0 (map gout gs))).
Proof.
  intros Ne H. destruct gs as [|g0 gs]; [congruence|]. cbn [hd] in H. unfold pack_of_vector.
  assert (C0 : one_col g0) by (apply H; now left). destruct C0 as (A1 & A2 & A3 & A4).
  assert (L : forall l io oo is os, (forall g, In g l -> one_col g /\ gin g = gin g0) ->
    foldM (fun g st => let '(io, oo, is, os) := st in
        assrt ((gin g =? gin g0) && (gic g =? gic g0) && (goc g =? goc g0) && (gicn g =? gicn g0) && (gocn g =? gocn g0))
          (Ok (io + gin g * gic g0, oo + gout g * goc g0, is ++ [io], os ++ [oo]))) l (io, oo, is, os) =
    Ok (io + total (map gin l), oo + total (map gout l), is ++ offsets io (map gin l), os ++ offsets oo (map gout l))).
  { induction l as [|g l IH]; intros io oo is os Hl; cbn [foldM map total fold_right offsets].
    - rewrite !Z.add_0_r, !app_nil_r. reflexivity.
    - destruct (Hl g (or_introl eq_refl)) as [(B1 & B2 & B3 & B4) B5]. 
      assert (Ec : (gin g =? gin g0) && (gic g =? gic g0) && (goc g =? goc g0) && (gicn g =? gicn g0) && (gocn g =? gocn g0) = true) by (rewrite B1, B2, B3, B4, B5, A1, A2, A3, A4, !Z.eqb_refl; reflexivity).
      rewrite Ec. cbn [assrt bind]. rewrite IH by (intros; apply Hl; now right). rewrite A1, A2.
      rewrite <- !app_assoc, !Z.mul_1_r. cbn [app]. fold (total (map gin l)) (total (map gout l)). rewrite !Z.add_assoc. reflexivity. }
  rewrite (L (g0 :: gs)) by assumption. cbn [bind app]. reflexivity.
Qed.
Lemma gather_pack_ok gs ess r x N Nx K (m : memR) A X : gs <> [] -> Forall2 gok gs ess -> (forall g, In g gs -> gin g = gin (hd (gm_new 0 0) gs)) ->
  distinct_cells r -> disjoint_views r x -> total (map gout gs) <= N -> total (map gin gs) <= Nx -> mat m r N K A -> mat m x Nx K X ->
  exists P m', pack_of_vector gs = Ok P /\ gather_pack r x P m = Ok m' /\
    mat m' r N K (fun i k => cadd (A i k) (gathered (stacked 0 0 gs ess) X i k)) /\ untouched m m' r.
Proof.
  intros Ne F Hin Dr Dx Lo Li Mr Mx.
  assert (Oc : forall g, In g gs -> one_col g) by (clear - F; induction F as [|g es gs ess (O & _) F IH]; [intros g' []|]; intros g' [Hg|Hg]; [now subst|auto]).
  exists (GPack gs (offsets 0 (map gin gs)) (offsets 0 (map gout gs))). destruct (pack_loop r x N Nx K Dr Dx gs ess F 0 0 m A X) as (m' & E & M' & U'); auto; try lia.
  exists m'. split; [apply pack_vec_ok; auto|]. split; [|auto]. unfold gather_pack.
  destruct (mat_view2 _ _ _ _ _ Mr) as (rv & Er & _ & Kr & _). destruct (mat_view2 _ _ _ _ _ Mx) as (xv & Exx & _ & Kx & _). rewrite Er, Exx. cbn [bind pmaps pin pout].
  destruct gs as [|g0 gs]; [congruence|]. destruct (Oc g0 (or_introl eq_refl)) as (C1 & C2 & C3 & C4). rewrite C1, C2, C3, C4, !crem_ok by (try apply Z.rem_1_r; lia). cbn [bind assrt Z.eqb].
  rewrite !split_one. cbn [bind]. rewrite Kr, Kx, Z.eqb_refl. cbn [assrt]. exact E.
Qed.
(* maps made by the public operations *)
Lemma sort_prep g qs : prep (garr g) (map hrow qs) -> exists g' qs', gm_sort g = Ok g' /\ prep (garr g') (map hrow qs') /\ Permutation qs' qs /\
  gout g' = gout g /\ gin g' = gin g /\ goc g' = goc g /\ gic g' = gic g /\ gocn g' = gocn g /\ gicn g' = gicn g /\ gfixed g' = gfixed g.
Proof.
  intro Pg. assert (H := prep_rd _ _ Pg). unfold gm_sort. destruct (gsorted g); [exists g, qs; split; [reflexivity|]; split; [exact Pg|]; split; [reflexivity|]; now repeat split|].
  destruct (by_length_ok Z.opp _ _ H) as (ls & -> & P). cbn [bind].
  destruct (prep_reserve (atail (garr g)) ap_new [] prep_new) as (r & -> & Pr). cbn [bind]. rewrite map_neg_calls.
  destruct (keyed_rows _ _ _ P) as [K1 K2].
  destruct (copies_ok (garr g) qs (map (fun c => (- fst c, snd c)) (mol_calls ls)) H) with (r := r) (L := @nil (list Z)) as (r' & -> & P').
  - apply Forall_forall. intros c Hc. apply in_map_iff in Hc. destruct Hc as (d & <- & Hd). rewrite Forall_forall in K2. destruct (K2 d Hd). cbn [fst snd]. lia.
  - assumption.
  - cbn [bind]. eexists. exists (map (fun c => qnth qs (snd c)) (mol_calls ls)). split; [reflexivity|]. cbn. rewrite map_map in P'. cbn in P'.
    split; [|auto 10]. rewrite map_map. exact P'.
Qed.
Lemma made_prep g : made g -> exists fk qs, gfixed g = map (map hrow) fk /\ prep (garr g) (map hrow qs).
Proof.
  induction 1 as [no ni|l oc ic ocn icn g E|ho ps ni no g Hho E|t v g c g' M (fk & qs & Ef & P) E|g c g' o M (fk & qs & Ef & P) E Ec|g g' M (fk & qs & Ef & P) E|ms g g' M (fk & qs & Ef & P) E].
  - exists [], []. split; [reflexivity|]. exact prep_new.
  - destruct (gm_of_lists_ok l oc ic ocn icn) as (g1 & E1 & P & _ & _ & _ & _ & F). rewrite E in E1. injection E1 as <-. exists [], l. auto.
  - unfold gm_of_matrix in E. destruct (forallb _ ps); [|discriminate]. cbn [assrt] in E. destruct (gm_fill_ok ho ps Hho) as (p & qs & Ep & P & _). rewrite Ep in E. cbn [bind] in E. injection E as <-. exists [], qs. auto.
  - unfold gm_push in E. cbn [gm] in E. destruct (push_rows_ok [(t, v)] (garr g) _ P) as (p' & Ep & P'). cbn [push_rows foldM fst snd] in Ep.
    destruct (hl_push t v (garr g)) as [p1| |] eqn:E1; cbn [bind] in *; try discriminate. injection Ep as <-. injection E as <-. exists fk, (qs ++ [(t, v)]). cbn. rewrite map_app. auto.
  - subst c. unfold gm_inv in E. cbn [ginv gm] in E. destruct (make_inv_ok g qs (prep_rd _ _ P)) as (g1 & qs' & E1 & P' & _ & _ & _ & _ & _ & _ & _ & _ & F'). rewrite E1 in E. cbn [bind] in E. injection E as <- <-. exists [], qs'. auto.
  - destruct (sort_prep g qs P) as (g1 & qs' & E1 & P' & _ & _ & _ & _ & _ & _ & _ & F). rewrite E in E1. injection E1 as <-. exists fk, qs'. split; [congruence|assumption].
  - destruct (gm_grade_ok ms g qs P) as (g1 & fk' & qs' & E1 & P' & F & _). rewrite E in E1. injection E1 as <-. exists (fk ++ fk'), qs'. rewrite F, Ef, map_app. auto.
Qed.
Lemma made_entries g : made g -> exists es, map_entries g es.
Proof. intro M. destruct (made_prep g M) as (fk & qs & E & P). exists (pairs (concat fk ++ qs)), fk, qs. split; [assumption|]. split; [now apply prep_rd|reflexivity]. Qed.
Lemma shows_unique p qs qs' : shows p qs -> shows p qs' -> qs = qs'.
Proof.
  intros [S1 Q] [S2 Q0]. assert (Ll : length qs = length qs') by lia. apply (nth_ext _ _ (0, []) (0, []) Ll). intros n Hn.
  destruct (nth n qs (0, [])) as [h l] eqn:E1, (nth n qs' (0, [])) as [h' l'] eqn:E2.
  destruct (Q (Z.of_nat n) h l ltac:(lia) ltac:(now rewrite Nat2Z.id)) as (A & B & C). destruct (Q0 (Z.of_nat n) h' l' ltac:(lia) ltac:(now rewrite Nat2Z.id)) as (A' & B' & C').
  rewrite A in A'. injection A' as ->. rewrite B in B'. injection B' as B'. f_equal. apply (nth_ext _ _ 0 0); [lia|]. intros j Hj.
  specialize (C (Z.of_nat j) ltac:(lia)). specialize (C' (Z.of_nat j) ltac:(lia)). rewrite C, !Nat2Z.id in C'. now injection C'.
Qed.
Lemma grade_entries ms g es : made g -> map_entries g es ->
  exists g' es', gm_grade ms g = Ok g' /\ map_entries g' es' /\ Permutation es' es /\ gout g' = gout g /\ gin g' = gin g /\ goc g' = goc g /\ gic g' = gic g /\ gocn g' = gocn g /\ gicn g' = gicn g.
Proof.
  intros M (fk & qs & Ef & Q & ->). destruct (made_prep g M) as (fk0 & qs0 & _ & Pr). assert (qs = qs0) by (apply (shows_unique (garr g)); [assumption|now apply prep_rd]).
  subst qs0. destruct (gm_grade_ok ms g qs Pr) as (g' & fk' & qs' & E & P' & F' & Pm & A1 & A2 & A3 & A4 & A5 & A6).
  exists g', (pairs (concat (fk ++ fk') ++ qs')). split; [assumption|]. split; [|split; [|auto 10]].
  - exists (fk ++ fk'), qs'. rewrite F', Ef, map_app. split; [reflexivity|]. split; [now apply prep_rd|reflexivity].
  - unfold pairs. apply Permutation_flat_map. rewrite concat_app, <- app_assoc. now apply Permutation_app_head.
Qed.
Lemma sort_entries g es : map_entries g es -> exists g' es', gm_sort g = Ok g' /\ map_entries g' es' /\ Permutation es' es /\
  gout g' = gout g /\ gin g' = gin g /\ goc g' = goc g /\ gic g' = gic g /\ gocn g' = gocn g /\ gicn g' = gicn g.
Proof.
  intros (fk & qs & Ef & Q & ->). destruct (gm_sort_ok g qs Q) as (g' & qs' & E & Q' & P & A1 & A2 & A3 & A4 & A5 & A6 & F).
  exists g', (pairs (concat fk ++ qs')). split; [assumption|]. split; [|split; [|auto 10]].
  - exists fk, qs'. split; [congruence|]. auto.
  - unfold pairs. apply Permutation_flat_map. now apply Permutation_app_head.
Qed.
(* columns *)
Lemma gather_cols (m : memR) r x g qs N Nx K Kx A X : mat m r N K A -> mat m x Nx Kx X -> rows_adjacent r -> rows_adjacent x -> distinct_cells r -> disjoint_views r x ->
  gocn g = 1 -> gicn g = 1 -> 0 < goc g -> 0 < gic g -> (goc g | K) -> (gic g | Kx) -> K / goc g = Kx / gic g -> 0 <= K -> 0 <= Kx ->
  gfixed g = [] -> shows (garr g) qs -> within (N * goc g) (Nx * gic g) (pairs qs) ->
  exists m', gather_rows r x g m = Ok m' /\
    (forall i k, 0 <= i < N * goc g -> 0 <= k < K / goc g ->
       elem m' r [i / goc g; i mod goc g * (K / goc g) + k] =
       Some (cadd (in_pieces (goc g) K A i k) (gathered (pairs qs) (in_pieces (gic g) Kx X) i k))) /\ untouched m m' r.
Proof.
  intros Mr Mx (N' & K' & s & Dr & Sr) (Nx' & Kx' & t & Dx & Sx) Di Dj Cn1 Cn2 C1 C2 [q Eq] [qx Eqx] Ek HK HKx Gf Q W.
  assert (D1 := proj1 Mr). assert (D2 := proj1 Mx). rewrite D1 in Dr. rewrite D2 in Dx. injection Dr as <- <-. injection Dx as <- <-.
  destruct r as [rb ro rdim rst], x as [xb xo xdim xst]. cbn [vdims vstr] in D1, D2, Sr, Sx. subst rdim xdim rst xst. set (c := goc g) in *. set (d := gic g) in *.
  assert (Kq : K / c = q) by (rewrite Eq; apply Z.div_mul; lia). assert (Kqx : Kx / d = qx) by (rewrite Eqx; apply Z.div_mul; lia). rewrite Kq, Kqx in *. subst qx.
  set (rv := MV rb ro (N * c) q (q * s) s). set (xv := MV xb xo (Nx * d) q (q * t) t).
  assert (Q1 : forall a b e, 0 < b -> Z.quot (a * b * e) b = a * e) by (intros a b e Hb; replace (a * b * e) with (a * e * b) by ring; apply Z.quot_mul; lia).
  assert (Er : split_cols c 1 (MV rb ro N K (K * s) s) = Ok rv).
  { unfold split_cols. cbn. replace (c =? 0) with false by lia. unfold rv. rewrite Eq, !Q1 by assumption. now rewrite Z.mul_1_r. }
  assert (Ex : split_cols d 1 (MV xb xo Nx Kx (Kx * t) t) = Ok xv).
  { unfold split_cols. cbn. replace (d =? 0) with false by lia. unfold xv. rewrite Eqx, !Q1 by assumption. now rewrite Z.mul_1_r. }
  assert (Ar : forall i k, vaddr (View rb ro [N; K] [K * s; s]) [i / c; i mod c * q + k] = Ok (mcell rv i k)).
  { intros i k. unfold vaddr, mcell. cbn. assert (Hd := Z.div_mod i c ltac:(lia)). rewrite Eq. replace (ro + (q * c * s * (i / c) + (s * (i mod c * q + k) + 0))) with (ro + (c * (i / c) + i mod c) * (q * s) + k * s) by ring. rewrite <- Hd. reflexivity. }
  assert (Ax : forall i k, vaddr (View xb xo [Nx; Kx] [Kx * t; t]) [i / d; i mod d * q + k] = Ok (mcell xv i k)).
  { intros i k. unfold vaddr, mcell. cbn. assert (Hd := Z.div_mod i d ltac:(lia)). rewrite Eqx. replace (xo + (q * d * t * (i / d) + (t * (i mod d * q + k) + 0))) with (xo + (d * (i / d) + i mod d) * (q * t) + k * t) by ring. rewrite <- Hd. reflexivity. }
  assert (Rg : forall n e a i k, 0 < e -> a = q * e -> 0 <= i < n * e -> 0 <= k < q -> 0 <= i / e < n /\ 0 <= i mod e * q + k < a).
  { intros n e a i k He Ea Hi Hk. assert (B := Z.mod_pos_bound i e He). split; [split; [apply Z.div_pos; lia|apply Z.div_lt_upper_bound; lia]|]. nia. }
  assert (Vr : forall i k, 0 <= i < N * c -> 0 <= k < q -> at_ m (mcell rv i k) = Some (in_pieces c K A i k)).
  { intros i k Hi Hk. destruct Mr as (_ & _ & Mr). destruct (Rg N c K i k C1 Eq Hi Hk) as [H1 H2]. specialize (Mr _ _ H1 H2). unfold elem in Mr. rewrite Ar in Mr. unfold in_pieces. rewrite Kq. exact Mr. }
  assert (Vx : forall i k, 0 <= i < Nx * d -> 0 <= k < q -> at_ m (mcell xv i k) = Some (in_pieces d Kx X i k)).
  { intros i k Hi Hk. destruct Mx as (_ & _ & Mx). destruct (Rg Nx d Kx i k C2 Eqx Hi Hk) as [H1 H2]. specialize (Mx _ _ H1 H2). unfold elem in Mx. rewrite Ax in Mx. unfold in_pieces. rewrite Kqx. exact Mx. }
  assert (Inj : forall i k i' k', 0 <= i < N * c -> 0 <= k < q -> 0 <= i' < N * c -> 0 <= k' < q -> mcell rv i k = mcell rv i' k' -> i = i' /\ k = k').
  { intros i k i' k' H1 H2 H3 H4 E. destruct (Rg N c K i k C1 Eq H1 H2), (Rg N c K i' k' C1 Eq H3 H4).
    assert (E' : [i / c; i mod c * q + k] = [i' / c; i' mod c * q + k']) by (apply Di; cbn [vdims]; rewrite ?range2; auto; rewrite !Ar, E; reflexivity).
    injection E' as Ea Eb. assert (B := Z.mod_pos_bound i c C1). assert (B' := Z.mod_pos_bound i' c C1). assert (M1 := Z.div_mod i c ltac:(lia)). assert (M2 := Z.div_mod i' c ltac:(lia)).
    assert (i mod c = i' mod c) by nia. split; nia. }
  assert (Pre : gather_pre m rv xv (pairs qs)).
  { split.
    - intros e k He Hk. cbn [n1 rv] in Hk. destruct (W e He). rewrite Vr, Vx by auto. split; discriminate.
    - intros e e' k k' He He' Hk Hk' E. cbn [n1 rv] in Hk, Hk'. destruct (W e He), (W e' He'). destruct (Rg N c K (fst e) k C1 Eq) as [G1 G2]; auto. destruct (Rg Nx d Kx (snd e') k' C2 Eqx) as [G3 G4]; auto.
      apply (Dj [fst e / c; fst e mod c * q + k] [snd e' / d; snd e' mod d * q + k']); cbn [vdims]; rewrite ?range2; auto. now rewrite Ar, Ax, E. }
  destruct (gather_rows_ok (View rb ro [N; K] [K * s; s]) (View xb xo [Nx; Kx] [Kx * t; t]) _ _ rv xv g qs m Gf Q eq_refl eq_refl) as (m' & E & P); auto.
  - fold c. lia.
  - fold d. lia.
  - cbn. fold c. rewrite Eq. apply Z.rem_mul. lia.
  - cbn. fold d. rewrite Eqx. apply Z.rem_mul. lia.
  - fold c. now rewrite Cn1.
  - fold d. now rewrite Cn2.
  - exists m'. split; [exact E|]. change (mol_calls qs) with (pairs qs) in P. split.
    + intros i k Hi Hk. unfold elem. rewrite Ar. change (at_ m' (mcell rv i k) = Some (cadd (in_pieces c K A i k) (gathered (pairs qs) (in_pieces d Kx X) i k))).
      rewrite (plus_at _ _ _ _ _ P (Vr i k Hi Hk)). do 2 f_equal. rewrite gsum_cell.
      * unfold gathered. apply rsum_ext. intros e He. apply filter_In in He. destruct He as [He _]. unfold val0. rewrite Vx; auto. now apply W.
      * exact Hk.
      * intros e k' He Hk' Ec. destruct (W e He). apply Inj; auto.
    + intros b a Ho. change (at_ m' (b, a) = at_ m (b, a)). apply (plus_off _ _ _ _ P). unfold gsum, added.
      rewrite filter_rsum. apply rsum_zero. intros ek Hek. apply in_eks in Hek. destruct Hek as [He Hk]. cbn [n1 rv] in Hk. destruct (W _ He) as [W1 W2].
      destruct (aeqb _ _) eqn:Ea; [|reflexivity]. exfalso. apply aeqb_eq in Ea. destruct (Rg N c K (fst (fst ek)) (snd ek) C1 Eq W1 Hk).
      apply (Ho [fst (fst ek) / c; fst (fst ek) mod c * q + snd ek]); [cbn; now rewrite range2|]. rewrite Ar. f_equal. exact Ea.
Qed.
End S7.
