(* Prop_BGprod3.v -- C116-C117: matrix products and views of batched and gridded tensors. *)
From Verif Require Import Base BaseFacts Model_Index Model_View Spec_Index Proofs_Index Spec_View Proofs_View Model_Tensor Spec_Tensor Proofs_Tensor Proofs_Tensor2 Proofs_Tensor3 Model_Threads Model_BG Spec_BG Proofs_BG Proofs_BG2 Proofs_BG3 Prop_BG Model_BGprod Spec_BGprod Proofs_BGprod Proofs_BGprod2 Proofs_BGprod3 Proofs_BGprod4 Prop_BGprod Prop_BGprod2.
From Coq Require Import Permutation.
Local Open Scope Z_scope.

(* ---- C116: matrix products ---- *)
(* row i, column k of the matrix a tensor has in the cell of a place *)
Definition at2 {R : cring} (m : mem (car R)) (x : bg) b g c (f : place) (i k : Z) : R := val m x b g c (fst f, [i; k]).
Definition row_of (f : place) : Z := nth 0 (snd f) 0.
Definition col_of (f : place) : Z := nth 1 (snd f) 0.
Theorem C116_add_mprod : forall (R : cring) (m : mem (car R)) r br gr x bx gx y by_ gy p n q B gd nt out,
  joined m r br gr [p; q] x bx gx [p; n] y by_ gy [n; q] B gd nt -> gr = gd \/ gx = gd -> bg_add_mprod r x y nt m out ->
  exists m', out = Ok m' /\ adds m m' r br gr [p; q] B gd [p; q] (fun f => rsum (map (fun k => cmul (at2 m x bx gx [p; n] f (row_of f) k) (at2 m y by_ gy [n; q] f k (col_of f))) (zrange n))).
Proof.
  intros R m r br gr x bx gx y by_ gy p n q B gd nt out (Hr & Hx & Hy & Pr & Px & Py & FB & Fg & Tr & Sx & Sy & Cm) G O.
  exact (mprod_op_ok r x y br bx by_ gr gx gy [p; q] [p; n] [n; q] B gd nt m Hr Hx Hy Pr Px Py FB Fg Tr Sx Sy Cm p n q G eq_refl eq_refl eq_refl out O).
Qed.
Print Assumptions C116_add_mprod.
(* add_mprod_AH and add_mprod_back0: the second factor transposed *)
Theorem C116_add_mprod_AH : forall (R : cring) (m : mem (car R)) r br gr x bx gx y by_ gy p n q B gd nt out,
  joined m r br gr [p; q] x bx gx [p; n] y by_ gy [q; n] B gd nt -> gr = gd \/ gx = gd -> bg_add_mprod_AH r x y nt m out \/ bg_add_mprod_back0 r x y nt m out ->
  exists m', out = Ok m' /\ adds m m' r br gr [p; q] B gd [p; q] (fun f => rsum (map (fun k => cmul (at2 m x bx gx [p; n] f (row_of f) k) (at2 m y by_ gy [q; n] f (col_of f) k)) (zrange n))).
Proof.
  intros R m r br gr x bx gx y by_ gy p n q B gd nt out (Hr & Hx & Hy & Pr & Px & Py & FB & Fg & Tr & Sx & Sy & Cm) G O.
  assert (O' : over_cells3 r x y 0 nt do_mprod_AH m out) by now destruct O.
  exact (mprod_AH_op_ok r x y br bx by_ gr gx gy [p; q] [p; n] [q; n] B gd nt m Hr Hx Hy Pr Px Py FB Fg Tr Sx Sy Cm p n q G eq_refl eq_refl eq_refl out O').
Qed.
Print Assumptions C116_add_mprod_AH.
Lemma cdim0 x b g (p q : Z) : shaped x b g [p; q] -> zget (vdims (bv x)) (1 + ng x) = Ok p /\ zget (vdims (bv x)) (2 + ng x) = Ok q /\ ncdims x = 2.
Proof.
  intros (E & N & _). unfold zget, ncdims, ndims. rewrite E, N.
  replace (1 + Z.of_nat (length g) <? 0) with false by lia. replace (2 + Z.of_nat (length g) <? 0) with false by lia. replace (Z.to_nat (1 + Z.of_nat (length g))) with (length (b :: g)) by (cbn [length]; lia). replace (Z.to_nat (2 + Z.of_nat (length g))) with (length ((b :: g) ++ [p])) by (rewrite app_length; cbn [length]; lia).
  unfold vget. split; [change (b :: g ++ [p; q]) with ((b :: g) ++ [p; q]); rewrite nth_error_app2 by lia; now rewrite Nat.sub_diag|]. split; [replace (b :: g ++ [p; q]) with (((b :: g) ++ [p]) ++ [q]) by (now rewrite <- app_assoc); rewrite nth_error_app2 by lia; now rewrite Nat.sub_diag|].
  cbn [length]. rewrite app_length. cbn [length]. lia.
Qed.
(* mprod: a new tensor with the matrix products in its cells *)
Theorem C116_mprod : forall (R : cring) (m : mem (car R)) k x bx gx y by_ gy p n q B gd nt out,
  shaped x bx gx [p; n] -> shaped y by_ gy [n; q] -> 0 < bx -> 0 < by_ -> fits 1 [bx; by_] B -> fits [] [gx; gy] gd ->
  (forall a, m k a = None) -> readable m (bv x) -> readable m (bv y) -> calm B nt gd ->
  bg_mprod k x y nt m out ->
  exists rm, out = Ok rm /\ makes m k B gd [p; q] (fun f => rsum (map (fun l => cmul (at2 m x bx gx [p; n] f (row_of f) l) (at2 m y by_ gy [n; q] f l (col_of f))) (zrange n))) rm.
Proof.
  intros R m k x bx gx y by_ gy p n q B gd nt out Hx Hy Px Py FB Fg Fk Rx Ry Cm O. unfold bg_mprod in O.
  destruct (cdim0 _ _ _ _ _ Hx) as (X0 & X1 & Xn). destruct (cdim0 _ _ _ _ _ Hy) as (Y0 & Y1 & Yn). rewrite X0, X1, Y0, Y1, Xn, Yn in O. cbn [bind] in O. rewrite (Z.eqb_refl n) in O. change (2 =? 2) with true in O. cbn [andb assrt] in O.
  unfold with_result in O. rewrite (proj2 (proj1 (C71_batch2 x y bx gx _ by_ gy _ Hx Hy) B) FB), (proj2 (proj1 (C71_grid2 x y bx gx _ by_ gy _ Hx Hy) gd) Fg) in O. cbn [bind] in O. cbv beta iota in O.
  destruct (shaped_nonneg _ _ _ _ Hx) as (_ & Nx & Ncx). destruct (shaped_nonneg _ _ _ _ Hy) as (_ & Ny & Ncy). assert (Ncc : nonneg [p; q]) by (inversion Ncx as [|? ? P1 P2]; inversion Ncy as [|? ? Q1 Q2]; inversion Q2; subst; repeat constructor; assumption).
  assert (HB : 0 < B) by (destruct FB as (I & _); cbn in I; intuition lia). assert (Ng : nonneg gd) by (destruct Fg as (I & _); cbn in I; intuition congruence).
  destruct (bg_zero k B gd [p; q] m) as [r m1] eqn:Ez. destruct (zero_ok k B gd [p; q] m r m1 ltac:(lia) Ng Ncc Ez) as (Hs & Hk & Tr & Z & Om). destruct O as (o & O & ->).
  assert (Eg : (gx = [] \/ gx = gd) /\ (gy = [] \/ gy = gd)) by (destruct Fg as (_ & F); split; apply F; cbn; auto).
  assert (Eb : (bx = 1 \/ bx = B) /\ (by_ = 1 \/ by_ = B)) by (destruct FB as (_ & F); split; apply F; cbn; auto).
  destruct (C116_add_mprod R m1 r B gd x bx gx y by_ gy p n q B gd nt o) as (m' & -> & A).
  { split; [assumption|]. split; [assumption|]. split; [assumption|]. do 3 (split; [assumption|]). split; [now apply times_shapes|]. split; [now apply times_shapes|]. split; [assumption|]. split; [eapply elsewhere_ok; eassumption|]. split; [eapply elsewhere_ok; eassumption|assumption]. }
  { now left. } { exact O. }
  cbn [bind]. destruct (result_ok k B gd [p; q] m r m1 (fun f => rsum (map (fun l => cmul (at2 m x bx gx [p; n] f (row_of f) l) (at2 m y by_ gy [n; q] f l (col_of f))) (zrange n))) _ (Ok m') ltac:(lia) Ng Ncc Ez (ex_intro _ m' (conj eq_refl A))) as (m'' & E & M).
  { intros f Hf. cbv beta. apply rsum_ext. intros l Hl. apply in_zrange in Hl. apply in_all_places in Hf as (H1 & H2 & H3). inversion H3 as [|i ? ix ? Hi H4]; subst. inversion H4 as [|j ? ix' ? Hj H5]; subst. inversion H5; subst. unfold at2, row_of, col_of. destruct f as [cf jf]. cbn [fst snd nth] in *. subst jf. cbn [nth].
    rewrite (elsewhere_val m m1 (vblk (bv r)) x bx gx [p; n] B gd [p; n] (cf, [i; l])), (elsewhere_val m m1 (vblk (bv r)) y by_ gy [n; q] B gd [n; q] (cf, [l; j])); try assumption; try (intuition congruence); apply in_all_places; cbn [fst snd]; (split; [assumption|]); (split; [assumption|]); repeat constructor; lia. }
  injection E as <-. eauto.
Qed.
Print Assumptions C116_mprod.
(* and other shapes are refused *)
Theorem C116_mprod_shapes : forall (R : cring) (m : mem (car R)) k x bx gx cx y by_ gy cy nt out,
  shaped x bx gx cx -> shaped y by_ gy cy -> ~ (exists p n q, cx = [p; n] /\ cy = [n; q]) -> bg_mprod k x y nt m out -> out = Throw.
Proof.
  intros R m k x bx gx cx y by_ gy cy nt out Hx Hy Ns O. unfold bg_mprod in O.
  assert (Xn : ncdims x = Z.of_nat (length cx)) by (destruct Hx as (E & N & _); unfold ncdims, ndims; rewrite E, N; cbn [length]; rewrite app_length; lia).
  assert (Yn : ncdims y = Z.of_nat (length cy)) by (destruct Hy as (E & N & _); unfold ncdims, ndims; rewrite E, N; cbn [length]; rewrite app_length; lia). rewrite Xn, Yn in O.
  destruct (Z.of_nat (length cx) =? 2) eqn:E1; [|exact O]. destruct (Z.of_nat (length cy) =? 2) eqn:E2; [|exact O].
  destruct cx as [|p [|n [|? ?]]]; cbn [length] in E1; try lia. destruct cy as [|n' [|q [|? ?]]]; cbn [length] in E2; try lia. cbn [andb assrt] in O.
  destruct (cdim0 _ _ _ _ _ Hx) as (X0 & X1 & _). destruct (cdim0 _ _ _ _ _ Hy) as (Y0 & Y1 & _). rewrite X0, X1, Y0, Y1 in O. cbn [bind] in O. destruct (n =? n') eqn:En; [|exact O]. exfalso. apply Ns. exists p, n, q. split; [reflexivity|f_equal; lia].
Qed.
Print Assumptions C116_mprod_shapes.
(* add_mprod_back1 would have to add, for the product of a p*n and an n*q matrix, the transposed first factor times the
   gradient of the result; it calls add_mprod_AH too, in which the second operand is transposed.  It throws unless the
   matrices are square, in whichever order it gets the two *)
Theorem C116_back1_refuted : forall (R : cring) (m : mem (car R)) yg bg_ gg rg br gr x bx gx p n q B gd nt out,
  joined m yg bg_ gg [n; q] rg br gr [p; q] x bx gx [p; n] B gd nt -> gg = gd \/ gr = gd /\ gx = gd -> positive gd -> ~ (p = n /\ n = q) ->
  (bg_add_mprod_back1 yg rg x nt m out -> out = Throw) /\ (bg_add_mprod_back1 yg x rg nt m out -> out = Throw).
Proof.
  intros R m yg bg_ gg rg br gr x bx gx p n q B gd nt out (Hg & Hr & Hx & Pg & Pr & Px & FB & Fg & Tg & Sr & Sx & Cm) G Pd Ns.
  assert (HB : 0 < B) by (destruct FB as (I & _); cbn in I; intuition lia).
  assert (Ne : exists c, In c (all_cells B gd)).
  { exists (0, repeat 0 (length gd)). apply in_all_cells. cbn [fst snd]. split; [lia|]. clear - Pd. induction Pd; cbn; constructor; [lia|assumption]. }
  assert (Gen : forall a ba ga ca b bb gb cb, shaped a ba ga ca -> shaped b bb gb cb -> 0 < ba -> 0 < bb -> fits 1 [bg_; ba; bb] B -> fits [] [gg; ga; gb] gd -> gg = gd \/ ga = gd -> (exists p n q, ca = [p; q] /\ cb = [p; n] /\ vdims (bv yg) = bg_ :: gg ++ [n; q] /\ ~ (p = n /\ n = q)) \/ (exists p n q, ca = [p; n] /\ cb = [p; q] /\ vdims (bv yg) = bg_ :: gg ++ [n; q] /\ ~ (p = n /\ n = q)) ->
    over_cells3 yg a b 0 nt do_mprod_AH m out -> out = Throw).
  { intros a ba ga ca b bb gb cb Ha Hb Pa Pb FB' Fg' G' Hc O. destruct (dom3 yg a b bg_ gg [n; q] ba ga ca bb gb cb B gd Hg Ha Hb Pg Pa Pb FB' Fg' G') as (EB & Eg & HB' & Ng & J).
    destruct (over_calls [yg; a; b] _ _ B gd 0 nt do_mprod_AH m out EB Eg HB' Ng J (lone0 yg [a; b] bg_ gg _ nt gd Hg Cm) O) as (l & -> & Pm & Fl). destruct Ne as (c & Ic). apply (Permutation_in _ (Permutation_sym Pm)) in Ic. destruct l as [|[ci vs] l]; [destruct Ic|]. inversion Fl as [|? ? Fc Fl']; subst.
    apply right3 in Fc as (gv & av & bv_ & -> & Cg & Ca & Cb). destruct (cell_facts _ _ _ _ _ _ _ Hg Cg) as (Dg & _). destruct (cell_facts _ _ _ _ _ _ _ Ha Ca) as (Da & _). destruct (cell_facts _ _ _ _ _ _ _ Hb Cb) as (Db & _).
    unfold run_calls. cbn [foldM snd do_mprod_AH]. unfold tv_add_mprod_AT. rewrite Dg, Da, Db.
    destruct Hc as [(p' & n' & q' & -> & -> & Ed & N)|(p' & n' & q' & -> & -> & Ed & N)]; destruct Hg as (Ed' & _); rewrite Ed' in Ed; injection Ed as Ed; apply app_inv_head in Ed; injection Ed as -> ->; replace (_ && _) with false by lia; reflexivity. }
  unfold bg_add_mprod_back1. destruct Hg as (Ed & Hg'). split; intro O.
  - eapply (Gen rg br gr [p; q] x bx gx [p; n]); try eassumption; [destruct G as [G|(G & _)]; auto|]. left. exists p, n, q. auto.
  - eapply (Gen x bx gx [p; n] rg br gr [p; q]); try eassumption; [now apply swap_fits|now apply swap_fits|destruct G as [G|(_ & G)]; auto|]. right. exists p, n, q. auto.
Qed.
Print Assumptions C116_back1_refuted.
(* and for square matrices it adds the gradient times the transposed first factor *)
Theorem C116_back1_square_refuted : forall (R : cring) (m : mem (car R)) yg bg_ gg rg br gr x bx gx n B gd nt out,
  joined m yg bg_ gg [n; n] rg br gr [n; n] x bx gx [n; n] B gd nt -> gg = gd \/ gr = gd -> bg_add_mprod_back1 yg rg x nt m out ->
  exists m', out = Ok m' /\ adds m m' yg bg_ gg [n; n] B gd [n; n] (fun f => rsum (map (fun k => cmul (at2 m rg br gr [n; n] f (row_of f) k) (at2 m x bx gx [n; n] f (col_of f) k)) (zrange n))).
Proof.
  intros R m yg bg_ gg rg br gr x bx gx n B gd nt out J G O. eapply C116_add_mprod_AH; [exact J|assumption|left; exact O].
Qed.
Print Assumptions C116_back1_square_refuted.

(* ---- C117: views ---- *)
Lemma shaped_parts x b g c : shaped x b g c -> exists s gs cs, vstr (bv x) = s :: gs ++ cs /\ length gs = length g /\ length cs = length c /\
  gstrides x = Ok gs /\ cstrides x = Ok cs /\ zget (vstr (bv x)) 0 = Ok s.
Proof.
  intro H. destruct (shaped_str _ _ _ _ H) as (s & gs & cs & E & Lg & Lc). exists s, gs, cs. split; [assumption|]. split; [assumption|]. split; [assumption|].
  assert (En := proj1 (proj2 H)). split; [unfold gstrides; rewrite E, En, <- Lg; apply chunk_mid|]. split; [|now rewrite E].
  unfold cstrides. rewrite (shaped_has_cells _ _ _ _ H). destruct c as [|c0 c]; cbn [nonempty]; [destruct cs; [reflexivity|discriminate]|]. rewrite E, En, <- Lg. apply chunk_end.
Qed.
Lemma wf_parts k o b g c s gs cs : 0 <= b -> nonneg g -> nonneg c -> length gs = length g -> length cs = length c -> vwf (View k o (b :: g ++ c) (s :: gs ++ cs)).
Proof. intros Hb Ng Nc Lg Lc. split; cbn [vdims vstr]; [cbn [length]; rewrite !app_length; congruence|]. constructor; [assumption|]. now apply Forall_app. Qed.
Lemma in_range_firstn n : forall k d, in_range k d -> in_range (firstn n k) (firstn n d).
Proof. induction n as [|n IH]; intros k d H; [constructor|]. destruct H; [constructor|]. cbn. constructor; auto. now apply IH. Qed.
(* the tensor of one batch *)
Theorem C117_batch : forall x n g c b, shaped x n g c -> 0 <= b < n -> exists y, bg_batch x b = Ok y /\ shaped y 1 g c /\ shows (bv y) (bv x) (fun k => b :: tl k).
Proof.
  intros x n g c b H Hb. destruct (shaped_parts _ _ _ _ H) as (s & gs & cs & E & Lg & Lc & Egs & Ecs & E0). destruct (shaped_nonneg _ _ _ _ H) as (_ & Ng & Nc).
  unfold bg_batch. rewrite E0, (shaped_gdims _ _ _ _ H), (shaped_cdims _ _ _ _ H), Egs, Ecs. cbn [bind]. unfold bg_parts. rewrite <- Lg, <- Lc, !Nat.eqb_refl. cbn [assrt]. rewrite Lg. eexists. split; [reflexivity|].
  split; [split; [reflexivity|]; split; [reflexivity|]; now apply wf_parts; try lia|]. cbn [bv]. intros k Hk. cbn [vdims] in *. inversion Hk as [|k0 ? kt ? H0 Ht]; subst. cbn [tl]. assert (k0 = 0) by lia. subst k0. rewrite (proj1 H). split; [constructor; assumption|].
  unfold vaddr, offs. cbn [vstr vblk voff]. rewrite E. cbn [length]. destruct ((_ <=? _)%nat); cbn [assrt bind dot]; [|reflexivity]. f_equal. f_equal. lia.
Qed.
Print Assumptions C117_batch.
(* the tensor without grid of one grid cell, and that of one cell of one batch *)
Theorem C117_cell : forall x n g c ix, shaped x n g c -> in_range ix g -> exists y, bg_cell x ix = Ok y /\ shaped y n [] c /\ shows (bv y) (bv x) (fun k => hd 0 k :: ix ++ tl k).
Proof.
  intros x n g c ix H Hi. destruct (shaped_parts _ _ _ _ H) as (s & gs & cs & E & Lg & Lc & Egs & Ecs & E0). destruct (shaped_nonneg _ _ _ _ H) as (Nn & Ng & Nc). assert (Li := in_range_length _ _ Hi).
  unfold bg_cell. rewrite Egs, (shaped_getb _ _ _ _ H), (shaped_cdims _ _ _ _ H), E0, Ecs. cbn [bind]. unfold offs at 1. replace (length ix <=? length gs)%nat with true by (symmetry; apply Nat.leb_le; lia). cbn [assrt bind]. unfold bg_parts. rewrite <- Lc, !Nat.eqb_refl. cbn [assrt]. eexists. split; [reflexivity|].
  split; [split; [reflexivity|]; split; [reflexivity|]; apply (wf_parts _ _ n [] c s [] cs); [lia|constructor|assumption|reflexivity|assumption]|]. cbn [bv]. intros k Hk. cbn [vdims app] in *. inversion Hk as [|k0 ? kt ? H0 Ht]; subst. cbn [tl hd]. rewrite (proj1 H). split; [constructor; [assumption|now apply in_range_app]|].
  unfold vaddr, offs. cbn [vstr vblk voff app]. rewrite E. assert (Lk := in_range_length _ _ Ht). cbn [length]. rewrite !app_length. replace (S (length kt) <=? S (length cs))%nat with true by (symmetry; apply Nat.leb_le; lia). replace (_ <=? _)%nat with true by (symmetry; apply Nat.leb_le; lia). cbn [assrt bind dot]. rewrite dot_app by lia. f_equal. f_equal. lia.
Qed.
Print Assumptions C117_cell.
Theorem C117_one_cell : forall x n g c b ix, shaped x n g c -> 0 <= b < n -> in_range ix g -> exists y, bg_cell1 x b ix = Ok y /\ shaped y 1 [] c /\ shows (bv y) (bv x) (fun k => b :: ix ++ tl k).
Proof.
  intros x n g c b ix H Hb Hi. destruct (shaped_parts _ _ _ _ H) as (s & gs & cs & E & Lg & Lc & Egs & Ecs & E0). destruct (shaped_nonneg _ _ _ _ H) as (Nn & Ng & Nc). assert (Li := in_range_length _ _ Hi).
  unfold bg_cell1. rewrite Egs, (shaped_cdims _ _ _ _ H), E0, Ecs. cbn [bind]. unfold offs at 1. replace (length ix <=? length gs)%nat with true by (symmetry; apply Nat.leb_le; lia). cbn [assrt bind]. unfold bg_parts. rewrite <- Lc, !Nat.eqb_refl. cbn [assrt]. eexists. split; [reflexivity|].
  split; [split; [reflexivity|]; split; [reflexivity|]; apply (wf_parts _ _ 1 [] c 0 [] cs); [lia|constructor|assumption|reflexivity|assumption]|]. cbn [bv]. intros k Hk. cbn [vdims app] in *. inversion Hk as [|k0 ? kt ? H0 Ht]; subst. assert (k0 = 0) by lia. subst k0. cbn [tl hd]. rewrite (proj1 H). split; [constructor; [assumption|now apply in_range_app]|].
  unfold vaddr, offs. cbn [vstr vblk voff app]. rewrite E. assert (Lk := in_range_length _ _ Ht). cbn [length]. rewrite !app_length. replace (S (length kt) <=? S (length cs))%nat with true by (symmetry; apply Nat.leb_le; lia). replace (_ <=? _)%nat with true by (symmetry; apply Nat.leb_le; lia). cbn [assrt bind dot]. rewrite dot_app by lia. f_equal. f_equal. lia.
Qed.
Print Assumptions C117_one_cell.
(* transp: the cells transposed, for cells that are matrices; refused otherwise *)
Theorem C117_transp : forall x n g p q, shaped x n g [p; q] -> exists y, bg_transp x = Ok y /\ shaped y n g [q; p] /\
  shows (bv y) (bv x) (fun k => firstn (S (length g)) k ++ rev (skipn (S (length g)) k)).
Proof.
  intros x n g p q H. destruct (shaped_parts _ _ _ _ H) as (s & gs & cs & E & Lg & Lc & _). destruct (shaped_nonneg _ _ _ _ H) as (Nn & Ng & Nc). destruct cs as [|c0 [|c1 [|? ?]]]; try discriminate. clear Lc.
  unfold bg_transp. rewrite (proj2 (proj2 (cdim0 _ _ _ _ _ H))). change (2 =? 2) with true. cbn [assrt]. rewrite (proj1 H), E. unfold swap_last.
  change (n :: g ++ [p; q]) with ((n :: g) ++ [p; q]). change (s :: gs ++ [c0; c1]) with ((s :: gs) ++ [c0; c1]). rewrite !rev_app_distr. cbn [rev app]. rewrite !rev_app_distr, !rev_involutive. cbn [rev app bind]. eexists. split; [reflexivity|].
  split; [split; [reflexivity|]; split; [exact (proj1 (proj2 H))|]; apply (wf_parts _ _ n g [q; p] s gs [c1; c0]); auto; inversion Nc as [|? ? P1 P2]; inversion P2; subst; repeat constructor; assumption|].
  cbn [bv]. intros k Hk. cbn [vdims] in Hk. inversion Hk as [|k0 ? kt ? H0 Ht]; subst. cbn [firstn skipn].
  assert (K1 := in_range_firstn (length g) _ _ Ht). assert (K2 := in_range_skipn (length g) _ _ Ht). rewrite firstn_app, Nat.sub_diag, firstn_all, app_nil_r in K1. rewrite skipn_app, Nat.sub_diag, skipn_all in K2. cbn [skipn app] in K2.
  assert (Ek := firstn_skipn (length g) kt). revert K1 K2 Ek. generalize (firstn (length g) kt) as a, (skipn (length g) kt) as t. intros a t Ka K2 Ek. inversion K2 as [|j ? l ? Hj K3]; subst. inversion K3 as [|i ? l' ? Hi K4]; subst. inversion K4; subst. assert (La := in_range_length _ _ Ka). cbn [rev app].
  rewrite (proj1 H). split; [constructor; [assumption|]; apply in_range_app; [assumption|]; repeat constructor; lia|].
  unfold vaddr, offs. cbn [vstr vblk voff]. rewrite E. cbn [length]. rewrite !app_length, La, Lg. cbn [length]. rewrite Nat.leb_refl. cbn [assrt bind dot]. rewrite !dot_app by lia. cbn [dot]. f_equal. f_equal. lia.
Qed.
Print Assumptions C117_transp.
Theorem C117_transp_throws : forall x n g c, shaped x n g c -> length c <> 2%nat -> bg_transp x = Throw.
Proof.
  intros x n g c (E & N & _) L. unfold bg_transp, ncdims, ndims. rewrite E, N. cbn [length]. rewrite app_length. replace (_ =? 2) with false by lia. reflexivity.
Qed.
Print Assumptions C117_transp_throws.
(* ---- examples ---- *)
Example C116_case : exists m', bg_add_mprod (ex_t 0 2 [2] [2; 2]) (ex_t 2 2 [2] [2; 3]) (ex_t 3 1 [] [3; 2]) 1 ex_mem (Ok m') /\ elem m' (bv (ex_t 0 2 [2] [2; 2])) [1; 0; 1; 0] = Some (35 * 30 + 36 * 32 + 37 * 34).
Proof.
  assert (J : joined ex_mem (ex_t 0 2 [2] [2; 2]) 2 [2] [2; 2] (ex_t 2 2 [2] [2; 3]) 2 [2] [2; 3] (ex_t 3 1 [] [3; 2]) 1 [] [3; 2] 2 [2] 1) by ex_join.
  destruct (runs0 ex_mem _ _ _ _ _ _ _ _ _ _ _ _ _ _ 1 do_mprod J ltac:(auto) ltac:(lia)) as (out & O).
  destruct (C116_add_mprod ZRing ex_mem _ _ _ _ _ _ _ _ _ 2 3 2 2 [2] 1 out J) as (m' & -> & A & _); [auto|exact O|].
  exists m'. split; [exact O|]. rewrite A; [vm_compute; reflexivity|repeat constructor; cbn; lia].
Qed.
Example C116_AH_case : exists m', bg_add_mprod_back0 (ex_t 0 2 [2] [2; 3]) (ex_t 2 2 [2] [2; 2]) (ex_t 3 1 [] [3; 2]) 1 ex_mem (Ok m') /\ elem m' (bv (ex_t 0 2 [2] [2; 3])) [1; 0; 1; 2] = Some (30 * 34 + 31 * 35).
Proof.
  assert (J : joined ex_mem (ex_t 0 2 [2] [2; 3]) 2 [2] [2; 3] (ex_t 2 2 [2] [2; 2]) 2 [2] [2; 2] (ex_t 3 1 [] [3; 2]) 1 [] [3; 2] 2 [2] 1) by ex_join.
  destruct (runs0 ex_mem _ _ _ _ _ _ _ _ _ _ _ _ _ _ 1 do_mprod_AH J ltac:(auto) ltac:(lia)) as (out & O).
  destruct (C116_add_mprod_AH ZRing ex_mem _ _ _ _ _ _ _ _ _ 2 2 3 2 [2] 1 out J) as (m' & -> & A & _); [auto|right; exact O|].
  exists m'. split; [exact O|]. rewrite A; [vm_compute; reflexivity|repeat constructor; cbn; lia].
Qed.
(* the gradient in the second factor of a product of 2*2 matrices: [0;0;1] should get column 0 of the first factor against
   column 1 of the gradient, 20*41+22*43, and a product of a 2*3 and a 3*2 matrix has none *)
Example C116_back1_case : (exists m', bg_add_mprod_back1 (ex_t 0 1 [] [2; 2]) (ex_t 4 1 [] [2; 2]) (ex_t 2 1 [] [2; 2]) 1 ex_mem (Ok m') /\ elem m' (bv (ex_t 0 1 [] [2; 2])) [0; 0; 1] = Some (40 * 22 + 41 * 23)) /\
  joined ex_mem (ex_t 0 1 [] [3; 2]) 1 [] [3; 2] (ex_t 4 1 [] [2; 2]) 1 [] [2; 2] (ex_t 2 1 [] [2; 3]) 1 [] [2; 3] 1 [] 1 /\ bg_add_mprod_back1 (ex_t 0 1 [] [3; 2]) (ex_t 4 1 [] [2; 2]) (ex_t 2 1 [] [2; 3]) 1 ex_mem Throw.
Proof.
  split.
  - assert (J : joined ex_mem (ex_t 0 1 [] [2; 2]) 1 [] [2; 2] (ex_t 4 1 [] [2; 2]) 1 [] [2; 2] (ex_t 2 1 [] [2; 2]) 1 [] [2; 2] 1 [] 1) by ex_join.
    destruct (runs0 ex_mem _ _ _ _ _ _ _ _ _ _ _ _ _ _ 1 do_mprod_AH J ltac:(auto) ltac:(lia)) as (out & O).
    destruct (C116_back1_square_refuted ZRing ex_mem _ _ _ _ _ _ _ _ _ 2 1 [] 1 out J) as (m' & -> & A & _); [auto|exact O|].
    exists m'. split; [exact O|]. rewrite A; [vm_compute; reflexivity|repeat constructor; cbn; lia].
  - assert (J : joined ex_mem (ex_t 0 1 [] [3; 2]) 1 [] [3; 2] (ex_t 4 1 [] [2; 2]) 1 [] [2; 2] (ex_t 2 1 [] [2; 3]) 1 [] [2; 3] 1 [] 1) by ex_join. split; [exact J|].
    destruct (runs0 ex_mem _ _ _ _ _ _ _ _ _ _ _ _ _ _ 1 do_mprod_AH J ltac:(auto) ltac:(lia)) as (out & O).
    assert (E : out = Throw) by exact (proj1 (C116_back1_refuted ZRing ex_mem _ _ _ _ _ _ _ _ _ 2 3 2 1 [] 1 out J (or_introl eq_refl) (Forall_nil _) ltac:(lia)) O). subst out. exact O.
Qed.
Example C117_case : let x := ex_t 2 2 [3] [2; 4] in shaped x 2 [3] [2; 4] /\ bg_batch x 1 = Ok (BG (View 2 24 [1; 3; 2; 4] [0; 8; 4; 1]) 1) /\ bg_cell x [2] = Ok (BG (View 2 16 [2; 2; 4] [24; 4; 1]) 0) /\
  bg_cell1 x 1 [2] = Ok (BG (View 2 40 [1; 2; 4] [0; 4; 1]) 0) /\ bg_transp x = Ok (BG (View 2 0 [2; 3; 4; 2] [24; 8; 1; 4]) 1) /\ bg_transp (ex_t 2 2 [3] [2]) = Throw.
Proof. cbv zeta. split; [apply ex_shaped; repeat constructor; lia|]. repeat split; reflexivity. Qed.
