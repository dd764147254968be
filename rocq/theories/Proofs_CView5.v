(* Proofs_CView5.v -- contraction and expansion of complex views. *)
From Verif Require Import Base BaseFacts Model_Index Model_View Model_Tensor Model_Ops Model_RView Model_CView Spec_Index Spec_View Spec_Tensor Spec_RView Spec_CView
  Proofs_Axes Proofs_Index Proofs_View Proofs_Tensor Proofs_Tensor2 Proofs_Tensor3 Proofs_Convolve2 Proofs_Ops2 Proofs_Ops3 Proofs_RView Proofs_RView2 Proofs_RView3 Proofs_RView4 Proofs_RView5 Proofs_RView6 Proofs_CView Proofs_CView2 Proofs_CView3 Proofs_CView4.
Local Open Scope Z_scope.

Section Cx.
Context {R : cring}.
Add Ring RrCV5 : (cth R).
Notation memR := (mem (car R)).
Notation C := (CxRing R).
Add Ring RcCV5 : (cth C).
Implicit Types (v w r x y : view) (m : memR) (M : list Z -> R).
Ltac sides := repeat match goal with H : cshape ?v ?d |- context [nd ?v ?k] => rewrite (cnd v d k H) by (cbn; lia) end; cbn [nth]; rewrite ?Z.eqb_refl; cbn [assrt].

Lemma untouched_cget r x dims m m' jx : cshape x dims -> readable m x -> disjoint_views r x -> untouched m m' r -> in_range jx dims -> cget x jx m' = Ok (celem m x jx).
Proof.
  intros [W D] Rx B U Hj. rewrite (cget_ok m' x dims) by (try split; try assumption; eapply keep_readable; eassumption).
  unfold celem. f_equal. f_equal; apply (keep_elem0 r x m m'); try assumption; rewrite D; apply in_range_snoc; try assumption; lia.
Qed.
Lemma cupd_cupd M ix (p q : C) jx : cupd (cupd M ix p) ix q jx = cupd M ix q jx.
Proof. unfold cupd. now destruct (eqlb (removelast jx) ix). Qed.

(* the innermost loop: the running sum is stored at every turn *)
Lemma running r dims m n ix (a b : Z -> C) (f g : Z -> memR -> res C) M m1 : cshape r dims -> distinct_cells r -> in_range ix dims ->
  (forall i m', 0 <= i < n -> untouched m m' r -> f i m' = Ok (a i) /\ g i m' = Ok (b i)) -> becomes r M m m1 ->
  exists m2, (do ' (_, m') <- forZ n (fun i s => let '(t, m) := s in do u <- f i m; do v <- g i m; let t' := cadd t (cmul u v) in do m1 <- cput r ix t' m; Ok (t', m1)) ((c0 : C), m1); Ok m') = Ok m2 /\
    becomes r (cupd M ix (if 0 <? n then rsum (map (fun i => cmul (a i) (b i)) (zrange n)) else cx M ix)) m m2.
Proof.
  intros S Hd Hix Hf B. unfold forZ.
  destruct (foldM_inv (fun done s => fst s = rsum (map (fun i => cmul (a i) (b i)) done) /\ becomes r (match done with [] => M | _ => cupd M ix (fst s) end) m (snd s))
    (fun i s => let '(t, m) := s in do u <- f i m; do v <- g i m; let t' := cadd t (cmul u v) in do m1 <- cput r ix t' m; Ok (t', m1)) (zrange n) ((c0 : C), m1)) as ([t m2] & E & A & B2).
  - split; [reflexivity|exact B].
  - intros done i rest [t m2] El [A1 B1]. cbn [fst snd] in *. assert (Hi : 0 <= i < n) by (apply in_zrange; rewrite El; apply in_or_app; right; now left).
    destruct (Hf i m2 Hi (proj2 B1)) as [-> ->]. cbn [bind]. destruct (cput_becomes m m2 r dims _ ix (cadd t (cmul (a i) (b i))) S Hd B1 Hix) as (m3 & E3 & B3). cbv zeta. rewrite E3. cbn [bind].
    eexists. split; [reflexivity|]. cbn [fst snd]. split; [rewrite map_app, rsum_app, <- A1; cbn [map]; unfold rsum; cbn [fold_right]; ring|].
    destruct done; cbn [app]; [exact B3|]. revert B3. apply becomes_ext. intros jx _. apply cupd_cupd.
  - cbn [fst snd] in *. rewrite E. cbn [bind]. exists m2. split; [reflexivity|]. destruct (Z.ltb_spec 0 n) as [Hn|Hn].
    + rewrite <- A. destruct (zrange n) eqn:Ez; [|exact B2]. apply (f_equal (@length Z)) in Ez. rewrite zrange_length in Ez. cbn in Ez. lia.
    + rewrite zrange_nil in B2 by assumption. revert B2. apply becomes_ext. intros jx Hjx. rewrite (proj2 S) in Hjx. apply in_range_snoc_inv in Hjx as (ix' & k & -> & Hx & Hk). rewrite cupd_at. destruct (eqlb ix' ix) eqn:Ee; [|reflexivity].
      apply eqlb_eq in Ee as ->. unfold part, cx. destruct (Z.eqb_spec k 0) as [->|]; [reflexivity|]. now replace k with 1 by lia.
Qed.
Definition csum3 m x y n (ix : list Z) : C := rsum (map (fun k => cmul (celem m x [nth 0 ix 0; k; nth 1 ix 0]) (celem m y [nth 0 ix 0; k; nth 1 ix 0])) (zrange n)).
Lemma swap12_shows v a b c : cshape v [a; b; c] -> cshape (cv3_swap12 v) [a; c; b] /\ shows (cv3_swap12 v) v (fun ix => [nth 0 ix 0; nth 2 ix 0; nth 1 ix 0; nth 3 ix 0]).
Proof. intro S. parts v S. unfold cv3_swap12. subview. Qed.
Lemma contract_ok r x y m a n c : operands r [x; y] m -> cshape r [a; c] -> cshape x [a; n; c] -> cshape y [a; n; c] ->
  exists m', cv3_contract x r y m = Ok m' /\
    cbecomes r [a; c] (fun ix => if 0 <? n then csum3 m x y n ix else celem m r ix) m m'.
Proof.
  intros (Wr & Hd & Rr & F) Sr Sx Sy. inversion F as [|? ? (Wx & Rx & Bx) F']; subst; inversion F' as [|? ? (Wy & Ry & By) _]; subst.
  unfold cv3_contract. sides. destruct (swap12_shows x a n c Sx) as [Swx Shx]. destruct (swap12_shows y a n c Sy) as [Swy Shy]. unfold cproduct_2_1. rewrite nest2_fold.
  destruct (cloop (fun ix (_ : C) m => do ' (_, m') <- forZ n (fun i s => let '(t, m) := s in
         do u <- cget (cv3_swap12 x) (ix ++ [i]) m; do v <- cget (cv3_swap12 y) (ix ++ [i]) m;
         let t' := cadd t (cmul u v) in do m1 <- cput r ix t' m; Ok (t', m1)) ((c0 : C), m); Ok m') (fun old t => if 0 <? n then t else old) (fun ix _ => Ok (csum3 m x y n ix))
    (csum3 m x y n) r [a; c] m Sr Hd Rr) as (m' & E & A & B & U); [|reflexivity|].
  - intros M m1 ix Hix B.
    destruct (running r [a; c] m n ix (fun k => celem m x [nth 0 ix 0; k; nth 1 ix 0]) (fun k => celem m y [nth 0 ix 0; k; nth 1 ix 0]) (fun i m => cget (cv3_swap12 x) (ix ++ [i]) m) (fun i m => cget (cv3_swap12 y) (ix ++ [i]) m) M m1 Sr Hd Hix) as (m2 & E2 & B2); [|exact B|exists m2; split; [exact E2|]; unfold csum3; destruct (0 <? n); exact B2].
    intros i m' Hi U. apply in_range_2_inv in Hix as (p & q & -> & Hp & Hq). cbn [nth app]. split.
    + rewrite (untouched_cget r (cv3_swap12 x) [a; c; n] m m') by (try assumption; try (now apply in3); try (eapply shows_readable; eassumption); eapply shows_disjoint_r; eassumption). f_equal. apply (celem_shows m _ x _ [a; c; n] _ _ Swx Shx); [now apply in3|]. intros k _. reflexivity.
    + rewrite (untouched_cget r (cv3_swap12 y) [a; c; n] m m') by (try assumption; try (now apply in3); try (eapply shows_readable; eassumption); eapply shows_disjoint_r; eassumption). f_equal. apply (celem_shows m _ y _ [a; c; n] _ _ Swy Shy); [now apply in3|]. intros k _. reflexivity.
  - exists m'. split; [exact E|]. split; [exact A|]. split; [exact B|exact U].
Qed.

(* a complex result as a result on the cells *)
Lemma cbecomes_cells r dims (g : list Z -> C) m m' : cshape r dims -> cbecomes r dims g m m' -> becomes r (fun jx => part (last jx 0) (g (removelast jx))) m m'.
Proof.
  intros [W D] (A & B & U). split; [|exact U]. intros jx Hj. rewrite (readable_elem m' r jx A Hj). f_equal. rewrite D in Hj. apply in_range_snoc_inv in Hj as (ix & k & -> & Hx & Hk).
  rewrite removelast_last, last_last, <- B by assumption. unfold celem, part. cbn [fst snd]. destruct (Z.eqb_spec k 0) as [->|]; [reflexivity|]. now replace k with 1 by lia.
Qed.
Lemma cells_cbecomes r dims (g : list Z -> C) m m' : cshape r dims -> becomes r (fun jx => part (last jx 0) (g (removelast jx))) m m' -> cbecomes r dims g m m'.
Proof.
  intros [W D] B. destruct (becomes_end _ _ _ _ B) as (B1 & B2 & B3). split; [exact B1|]. split; [|exact B2]. intros ix Hix. unfold celem. rewrite !B3 by (rewrite D; apply in_range_snoc; [assumption|lia]).
  rewrite !removelast_last, !last_last. unfold part. cbn [Z.eqb]. now destruct (g ix).
Qed.
Lemma contract4_ok r x y m a b n c : operands r [x; y] m -> cshape r [a; b; c] -> cshape x [a; b; n; c] -> cshape y [b; n; c] ->
  exists m', cv4_contract x r y m = Ok m' /\
    cbecomes r [a; b; c] (fun ix => if 0 <? n then rsum (map (fun k => cmul (celem m x [nth 0 ix 0; nth 1 ix 0; k; nth 2 ix 0]) (celem m y [nth 1 ix 0; k; nth 2 ix 0])) (zrange n)) else celem m r ix) m m'.
Proof.
  intros (Wr & Hd & Rr & F) Sr Sx Sy. inversion F as [|? ? (Wx & Rx & Bx) F']; subst; inversion F' as [|? ? (Wy & Ry & By) _]; subst.
  unfold cv4_contract. sides. unfold forZ.
  pose (g := fun ix => if 0 <? n then rsum (map (fun k => cmul (celem m x [nth 0 ix 0; nth 1 ix 0; k; nth 2 ix 0]) (celem m y [nth 1 ix 0; k; nth 2 ix 0])) (zrange n)) else celem m r ix).
  destruct (cslices3 r a b c Sr) as [Slr _]. destruct (cfuse4 x a b n c Sx) as (_ & _ & Slx).
  destruct (foldM_inv (fun done m' => becomes r (fun jx => if in_dec Z.eq_dec (nth 0 jx 0) done then part (last jx 0) (g (removelast jx)) else elem0 m r jx) m m')
    (fun i => cv3_contract (cv4_slice0 x i) (cv3_slice0 r i) y) (zrange a) m) as (m' & E & B).
  - now apply becomes_start.
  - intros done i rest m1 El B1. assert (Hi : 0 <= i < a) by (apply in_zrange; rewrite El; apply in_or_app; right; now left).
    assert (Hn : ~ In i done). { pose proof (zrange_nodup a) as Nd. rewrite El in Nd. apply NoDup_remove_2 in Nd. intro I. apply Nd. apply in_or_app. now left. }
    destruct (Slr i Hi) as [Ssr Shr]. destruct (Slx i Hi) as [Ssx Shx]. destruct (becomes_end _ _ _ _ B1) as (R1 & U1 & E1).
    assert (O : operands (cv3_slice0 r i) [cv4_slice0 x i; y] m1).
    { split; [apply Ssr|]. split; [apply (shows_distinct _ _ _ Shr); [|assumption]; intros ? ? _ _ Q; now injection Q|]. split; [eapply shows_readable; eassumption|].
      constructor; [|constructor; [|constructor]].
      - split; [apply Ssx|]. split; [eapply shows_readable; [eassumption|]; now apply (keep_readable r x m m1)|]. eapply shows_disjoint_l; [eassumption|]. eapply shows_disjoint_r; eassumption.
      - split; [assumption|]. split; [now apply (keep_readable r y m m1)|]. eapply shows_disjoint_l; eassumption. }
    destruct (contract_ok (cv3_slice0 r i) (cv4_slice0 x i) y m1 b n c O Ssr Ssx Sy) as (m2 & E2 & B2). exists m2. split; [exact E2|]. apply (cbecomes_cells _ _ _ _ _ Ssr) in B2.
    assert (K : forall (v : view) dims jx, cshape v dims -> readable m v -> disjoint_views r v -> in_range jx dims -> celem m1 v jx = celem m v jx).
    { intros v dims jx Sv Rv Bv Hj. unfold celem. f_equal; apply (keep_elem0 r v m m1); try assumption; try apply Sv; rewrite (proj2 Sv); apply in_range_snoc; try assumption; lia. }
    apply (sub_becomes m m1 m2 (cv3_slice0 r i) r (fun ix => i :: ix) _ _ _ Shr Hd B1 B2).
    + intros jx Hj. rewrite (proj2 Ssr) in Hj. apply in_range_snoc_inv in Hj as (ix & k & -> & Hx & Hk). apply in_range_2_inv in Hx as (p & q & -> & Hp & Hq). cbn [app nth last removelast].
      destruct (in_dec Z.eq_dec i (done ++ [i])) as [_|N]; [|exfalso; apply N; apply in_or_app; right; now left]. f_equal. unfold g. cbn [nth]. destruct (0 <? n).
      * unfold csum3. f_equal. apply map_ext_in. intros t Ht. apply in_zrange in Ht. f_equal.
        -- rewrite (celem_shows m1 _ x _ [b; n; c] _ [i; p; t; q] Ssx Shx) by (try reflexivity; now apply in3). symmetry. apply (K x [a; b; n; c]); try assumption. repeat constructor; lia.
        -- symmetry. apply (K y [b; n; c]); try assumption. now apply in3.
      * rewrite (celem_shows m1 _ r _ [b; c] _ [i; p; q] Ssr Shr) by (try reflexivity; now apply in_range_2).
        unfold celem. f_equal; symmetry; rewrite E1 by (rewrite (proj2 Sr); apply in_range_snoc; [now apply in3|lia]); cbn [app nth]; destruct (in_dec Z.eq_dec i done); try contradiction; reflexivity.
    + intros jx Hj Hne. rewrite (proj2 Sr) in Hj. apply in_range_snoc_inv in Hj as (ix & k & -> & Hx & Hk). apply in_range_3_inv in Hx as (p & q & t & -> & Hp & Hq & Ht). cbn [app nth].
      destruct (in_dec Z.eq_dec p (done ++ [i])) as [I|I], (in_dec Z.eq_dec p done) as [I'|I']; try reflexivity.
      * exfalso. apply in_app_or in I as [I|[I|[]]]; [contradiction|]. subst p. apply (Hne [q; t; k]); [|reflexivity]. rewrite (proj2 Ssr). apply (in_range_snoc [q; t] k [b; c] 2); [now apply in_range_2|assumption].
      * exfalso. apply I. apply in_or_app. now left.
  - exists m'. split; [exact E|]. apply cells_cbecomes; [assumption|]. revert B. apply becomes_ext. intros jx Hj. rewrite (proj2 Sr) in Hj. apply in_range_snoc_inv in Hj as (ix & k & -> & Hx & Hk). apply in_range_3_inv in Hx as (p & q & t & -> & Hp & Hq & Ht). cbn [app nth].
    destruct (in_dec Z.eq_dec p (zrange a)) as [_|N]; [reflexivity|]. exfalso. apply N. now apply in_zrange.
Qed.

(* ---- expansion ---- *)
Lemma loop_4 {S} (body : list Z -> S -> res S) n0 n1 n2 n3 st : forZ n0 (fun a => nest3 n1 n2 n3 (fun ix => body (a :: ix))) st = foldM body (all_indices [n0; n1; n2; n3]) st.
Proof.
  change (all_indices [n0; n1; n2; n3]) with (flat_map (fun i => map (cons i) (all_indices [n1; n2; n3])) (zrange n0)). rewrite foldM_flat_map. unfold forZ at 1. apply foldM_ext. intros a s _. rewrite foldM_map. apply nest3_fold.
Qed.
Lemma expand_ok r x y m a b c d : operands r [x; y] m -> cshape r [a; b; c; d] -> cshape x [a; b; d] -> cshape y [b; c; d] ->
  exists m', cv4_expand_2 r x y m = Ok m' /\
    cbecomes r [a; b; c; d] (fun ix => cmul (celem m x [nth 0 ix 0; nth 1 ix 0; nth 3 ix 0]) (celem m y [nth 1 ix 0; nth 2 ix 0; nth 3 ix 0])) m m'.
Proof.
  intros (Wr & Hd & Rr & F) Sr Sx Sy. inversion F as [|? ? (Wx & Rx & Bx) F']; subst; inversion F' as [|? ? (Wy & Ry & By) _]; subst.
  unfold cv4_expand_2. sides. unfold cproduct_4. set (x' := View (vblk x) _ _ _). set (y' := View (vblk y) _ _ _).
  pose proof (cpos r _ 0 Sr ltac:(cbn; lia)) as P0. pose proof (cpos r _ 1 Sr ltac:(cbn; lia)) as P1. pose proof (cpos r _ 2 Sr ltac:(cbn; lia)) as P2. pose proof (cpos r _ 3 Sr ltac:(cbn; lia)) as P3. cbn [nth] in *.
  assert (X : cshape x' [a; b; c; d] /\ shows x' x (fun ix => [nth 0 ix 0; nth 1 ix 0; nth 3 ix 0; nth 4 ix 0])).
  { subst x'. clear -P0 P1 P2 P3 Sx. parts x Sx. subview. }
  assert (Y : cshape y' [a; b; c; d] /\ shows y' y (fun ix => [nth 1 ix 0; nth 2 ix 0; nth 3 ix 0; nth 4 ix 0])).
  { subst y'. clear -P0 P1 P2 P3 Sy. parts y Sy. subview. }
  clearbody x' y'. destruct X as [Sx' Shx], Y as [Sy' Shy].
  rewrite (loop_4 (fun ix m => do u <- cget x' ix m; do v <- cget y' ix m; cput r ix (cmul u v) m)).
  destruct (cset r [a; b; c; d] (fun ix m => do u <- cget x' ix m; do v <- cget y' ix m; Ok (cmul u v)) (fun ix => cmul (celem m x [nth 0 ix 0; nth 1 ix 0; nth 3 ix 0]) (celem m y [nth 1 ix 0; nth 2 ix 0; nth 3 ix 0])) m) as (m' & E & G); try assumption.
  - intros ix m' Hix Q. apply quiet_untouched in Q.
    rewrite (untouched_cget r x' [a; b; c; d] m m') by (try assumption; try (eapply shows_readable; eassumption); eapply shows_disjoint_r; eassumption).
    rewrite (untouched_cget r y' [a; b; c; d] m m') by (try assumption; try (eapply shows_readable; eassumption); eapply shows_disjoint_r; eassumption). cbn [bind]. f_equal. assert (Hix' := Hix). apply in4_inv in Hix' as (i & j & k & l & -> & Hi & Hj & Hk & Hl). cbn [nth]. f_equal.
    + apply (celem_shows m x' x _ [a; b; c; d] _ _ Sx' Shx Hix). reflexivity.
    + apply (celem_shows m y' y _ [a; b; c; d] _ _ Sy' Shy Hix). reflexivity.
  - exists m'. split; [|exact G]. rewrite <- E. apply foldM_ext. intros ix m1 _. destruct (cget x' ix m1); cbn [bind]; try reflexivity. destruct (cget y' ix m1); reflexivity.
Qed.
End Cx.
