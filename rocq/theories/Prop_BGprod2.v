(* Prop_BGprod2.v -- C114-C117. *)
From Verif Require Import Base BaseFacts Model_Index Model_View Spec_Index Proofs_Index Spec_View Proofs_View Model_Tensor Spec_Tensor Proofs_Tensor Proofs_Tensor2 Proofs_Tensor3 Model_Threads Model_BG Spec_BG Proofs_BG Proofs_BG2 Proofs_BG3 Prop_BG Model_BGprod Spec_BGprod Proofs_BGprod Proofs_BGprod2 Proofs_BGprod3 Proofs_BGprod4 Prop_BGprod.
From Coq Require Import Permutation.
Local Open Scope Z_scope.

(* ---- C114: gradients of products ---- *)
(* r.add_prod_XC(x,y) adds, for every place, x times the conjugate of y to the element of r: also when r has no cells,
   where it adds the inner products of the cells *)
Theorem C114_add_prod_XC : forall (R : cring) (cj : R -> R) (m : mem (car R)) r br gr cr x bx gx cx y by_ gy cy B gd cd nt out,
  joined m r br gr cr x bx gx cx y by_ gy cy B gd nt -> fits [] [cr; cx; cy] cd -> cd <> [] -> (cr <> [] \/ cx <> []) -> (cr <> [] \/ cy <> []) -> (cx <> [] \/ cy <> []) ->
  (cx = [] /\ (gr = gd \/ gy = gd) \/ cx <> [] /\ (cr = [] /\ (gx = gd \/ gy = gd) \/ cr <> [] /\ (gr = gd \/ gx = gd))) ->
  bg_add_prod_XC cj r x y nt m out ->
  exists m', out = Ok m' /\ adds m m' r br gr cr B gd cd (fun f => cmul (val m x bx gx cx f) (cj (val m y by_ gy cy f))).
Proof.
  intros R cj m r br gr cr x bx gx cx y by_ gy cy B gd cd nt out (Hr & Hx & Hy & Pr & Px & Py & FB & Fg & Tr & Sx & Sy & Cm) Fc Nc N1 N2 N3 G O. pose (Rth := cth R).
  assert (Er : cr = [] \/ cr = cd) by (apply Fc; cbn; auto). assert (Ex : cx = [] \/ cx = cd) by (apply Fc; cbn; auto). assert (Ey : cy = [] \/ cy = cd) by (apply Fc; cbn; auto).
  unfold bg_add_prod_XC, few_cells in O. rewrite (shaped_has_cells _ _ _ _ Hr), (shaped_has_cells _ _ _ _ Hx), (shaped_has_cells _ _ _ _ Hy) in O.
  destruct cx as [|c1 cx].
  - destruct Er as [->|Er]; [intuition congruence|]. destruct Ey as [->|Ey]; [intuition congruence|]. subst cr cy. rewrite (ne_true cd Nc) in O. cbn [nonempty Z.b2z negb] in O. change (0 + 1 + 1 <? 2) with false in O. cbv iota in O.
    exact (addCX_ok cj r y x br by_ bx gr gy gx cd cd [] B gd nt m Hr Hy Hx Pr Py Px (swap_fits _ _ _ _ _ FB) (swap_fits _ _ _ _ _ Fg) Tr Sy Sx Cm ltac:(intuition congruence) eq_refl eq_refl out O).
  - destruct Ex as [Ex|Ex]; [discriminate|]. destruct cy as [|c2 cy].
    + destruct Er as [->|Er]; [intuition congruence|]. subst cr. rewrite (ne_true cd Nc) in O. cbn [nonempty Z.b2z negb] in O. change (1 + 0 + 1 <? 2) with false in O. cbv iota in O.
      destruct (addc_ok r x y br bx by_ gr gx gy cd (c1 :: cx) [] B gd nt m Hr Hx Hy Pr Px Py FB Fg Tr Sx Sy Cm cj ltac:(intuition congruence) Ex eq_refl out O) as (m' & -> & A).
      exists m'. split; [reflexivity|]. eapply adds_ext; [exact A|]. intros f _. cbv beta. apply (Ring_theory.Rmul_comm Rth).
    + destruct Ey as [Ey|Ey]; [discriminate|]. destruct cr as [|c3 cr]; cbn [nonempty Z.b2z negb] in O.
      * change (1 + 1 + 0 <? 2) with false in O. cbv iota in O.
        exact (inp_op_ok cj r x y br bx by_ gr gx gy [] (c1 :: cx) (c2 :: cy) B gd nt m Hr Hx Hy Pr Px Py FB Fg Tr Sx Sy Cm cd ltac:(intuition congruence) eq_refl Ex Ey Nc out O).
      * change (1 + 1 + 1 <? 2) with false in O. cbv iota in O. destruct Er as [Er|Er]; [discriminate|]. rewrite <- Er.
        exact (prod_ok r x y br bx by_ gr gx gy (c3 :: cr) (c1 :: cx) (c2 :: cy) B gd nt m Hr Hx Hy Pr Px Py FB Fg Tr Sx Sy Cm (f_prodXC cj) (fun a b => cmul a (cj b)) (fun v a b => eq_refl) ltac:(intuition congruence) ltac:(congruence) ltac:(congruence) out O).
Qed.
Print Assumptions C114_add_prod_XC.
Lemma cj0 {R : cring} (cj : R -> R) : (forall a b, cj (cadd a b) = cadd (cj a) (cj b)) -> cj c0 = c0.
Proof.
  pose (T := cth R). intro H. assert (E := H c0 c0). rewrite (Ring_theory.Radd_0_l T) in E. assert (E2 : cadd (cj c0) (copp (cj c0)) = cadd (cadd (cj c0) (cj c0)) (copp (cj c0))) by congruence.
  rewrite <- (Ring_theory.Radd_assoc T), (Ring_theory.Ropp_def T) in E2. rewrite (Ring_theory.Radd_comm T), (Ring_theory.Radd_0_l T) in E2. congruence.
Qed.
Lemma cj_sum {R : cring} (cj : R -> R) {A} (f : A -> R) l : (forall a b, cj (cadd a b) = cadd (cj a) (cj b)) -> cj (rsum (map f l)) = rsum (map (fun a => cj (f a)) l).
Proof. intro H. induction l as [|a l IH]; [exact (cj0 cj H)|]. cbn [map]. now rewrite !rsum_cons, H, IH. Qed.
(* what makes a backward operation the gradient: with r zero and gradients zero before, the pairing of the gradient of r with the
   result of the forward operation on dx is that of the gradient found with dx *)
Lemma pairing {R : cring} (cj : R -> R) (m m1 m2 : mem (car R)) r rg xg dx y br gr cr bx gx cx by_ gy cy B gd cd (w : R -> R) :
  (forall a b, cj (cadd a b) = cadd (cj a) (cj b)) -> (forall a b, cj (cmul a b) = cmul (cj a) (cj b)) ->
  shaped r br gr cr -> (br = 1 \/ br = B) -> (gr = [] \/ gr = gd) -> (cr = [] \/ cr = cd) -> shaped xg bx gx cx -> (bx = 1 \/ bx = B) -> (gx = [] \/ gx = gd) -> (cx = [] \/ cx = cd) ->
  (forall k, in_range k (vdims (bv r)) -> elem0 m (bv r) k = c0) -> (forall k, in_range k (vdims (bv xg)) -> elem0 m (bv xg) k = c0) ->
  adds m m1 r br gr cr B gd cd (fun f => cmul (val m dx bx gx cx f) (w (val m y by_ gy cy f))) ->
  adds m m2 xg bx gx cx B gd cd (fun f => cmul (val m rg br gr cr f) (cj (w (val m y by_ gy cy f)))) ->
  over_elems r (fun k => cmul (elem0 m (bv rg) k) (cj (elem0 m1 (bv r) k))) = over_elems xg (fun k => cmul (elem0 m2 (bv xg) k) (cj (elem0 m (bv dx) k))).
Proof.
  pose (T := cth R). intros Ca Cm Hr Hbr Hgr Hcr Hx Hbx Hgx Hcx Z Zx (A1 & _) (A2 & _). unfold over_elems.
  transitivity (over_elems r (fun k => cmul (elem0 m (bv rg) k) (rsum (map (fun f => cj (cmul (val m dx bx gx cx f) (w (val m y by_ gy cy f)))) (filter (fun f => same_index (part br gr cr f) k) (all_places B gd cd)))))).
  { apply rsum_ext. intros k Hk. apply in_all_indices in Hk. f_equal. unfold elem0 at 1. rewrite (A1 k Hk), (Z k Hk), (Ring_theory.Radd_0_l T). now apply cj_sum. }
  rewrite (fibres r br gr cr B gd cd _ _ Hr Hbr Hgr Hcr).
  transitivity (over_elems xg (fun k => cmul (cj (elem0 m (bv dx) k)) (rsum (map (fun f => cmul (val m rg br gr cr f) (cj (w (val m y by_ gy cy f)))) (filter (fun f => same_index (part bx gx cx f) k) (all_places B gd cd)))))).
  2:{ apply rsum_ext. intros k Hk. apply in_all_indices in Hk. unfold elem0 at 2. rewrite (A2 k Hk), (Zx k Hk), (Ring_theory.Radd_0_l T). apply (Ring_theory.Rmul_comm T). }
  rewrite (fibres xg bx gx cx B gd cd _ _ Hx Hbx Hgx Hcx). apply rsum_ext. intros f _. rewrite Cm. unfold val. rewrite !(Ring_theory.Rmul_assoc T). f_equal. apply (Ring_theory.Rmul_comm T).
Qed.
(* add_prod_back0(rg,y) is the gradient of the product in its first factor *)
Theorem C114_back0_adjoint : forall (R : cring) (cj : R -> R) (m : mem (car R)) r rg xg dx bx gx cx y by_ gy cy B gd cr nt m1 m2,
  (forall a b, cj (cadd a b) = cadd (cj a) (cj b)) -> (forall a b, cj (cmul a b) = cmul (cj a) (cj b)) ->
  joined m r B gd cr dx bx gx cx y by_ gy cy B gd nt -> joined m xg bx gx cx rg B gd cr y by_ gy cy B gd nt -> fits [] [cx; cy] cr -> cr <> [] ->
  (forall k, in_range k (vdims (bv r)) -> elem0 m (bv r) k = c0) -> (forall k, in_range k (vdims (bv xg)) -> elem0 m (bv xg) k = c0) ->
  bg_add_prod r dx y nt m (Ok m1) -> bg_add_prod_back0 cj xg rg y nt m (Ok m2) ->
  over_elems r (fun k => cmul (elem0 m (bv rg) k) (cj (elem0 m1 (bv r) k))) = over_elems xg (fun k => cmul (elem0 m2 (bv xg) k) (cj (elem0 m (bv dx) k))).
Proof.
  intros R cj m r rg xg dx bx gx cx y by_ gy cy B gd cr nt m1 m2 Ca Cm J1 J2 Fc Nc Z Zx O1 O2.
  assert (Ec : (cx = [] \/ cx = cr) /\ (cy = [] \/ cy = cr)) by (destruct Fc as (_ & F); split; apply F; cbn; auto). assert (Ne : cx <> [] \/ cy <> []) by (destruct Fc as ([I|[I|[]]] & _); subst; auto).
  destruct (C113_add_prod R m r B gd cr dx bx gx cx y by_ gy cy B gd nt (Ok m1) J1 Nc (proj1 Ec) (proj2 Ec) Ne ltac:(auto) O1) as (m1' & E1 & A1). injection E1 as <-.
  destruct (C114_add_prod_XC R cj m xg bx gx cx rg B gd cr y by_ gy cy B gd cr nt (Ok m2) J2) as (m2' & E2 & A2); try assumption; try (auto; fail).
  { split; [cbn; auto|]. intros c [<-|[<-|[<-|[]]]]; intuition auto. } { right. split; [assumption|]. destruct cx; [left; auto|right; split; [discriminate|auto]]. }
  injection E2 as <-. destruct J1 as (Hr & Hx & _ & _ & _ & _ & FB & Fg & _). destruct J2 as (Hxg & _).
  apply (pairing cj m m1 m2 r rg xg dx y B gd cr bx gx cx by_ gy cy B gd cr (fun a => a)); auto; [apply FB|apply Fg|tauto]; cbn; auto.
Qed.
Print Assumptions C114_back0_adjoint.
(* add_prod_back1(rg,x) is the gradient of the product in its second factor *)
Theorem C114_back1_adjoint : forall (R : cring) (cj : R -> R) (m : mem (car R)) r rg yg dy x bx gx cx by_ gy cy B gd cr nt m1 m2,
  (forall a b, cj (cadd a b) = cadd (cj a) (cj b)) -> (forall a b, cj (cmul a b) = cmul (cj a) (cj b)) ->
  joined m r B gd cr x bx gx cx dy by_ gy cy B gd nt -> joined m yg by_ gy cy rg B gd cr x bx gx cx B gd nt -> fits [] [cx; cy] cr -> cr <> [] ->
  (forall k, in_range k (vdims (bv r)) -> elem0 m (bv r) k = c0) -> (forall k, in_range k (vdims (bv yg)) -> elem0 m (bv yg) k = c0) ->
  bg_add_prod r x dy nt m (Ok m1) -> bg_add_prod_back1 cj yg rg x nt m (Ok m2) ->
  over_elems r (fun k => cmul (elem0 m (bv rg) k) (cj (elem0 m1 (bv r) k))) = over_elems yg (fun k => cmul (elem0 m2 (bv yg) k) (cj (elem0 m (bv dy) k))).
Proof.
  intros R cj m r rg yg dy x bx gx cx by_ gy cy B gd cr nt m1 m2 Ca Cm J1 J2 Fc Nc Z Zx O1 O2.
  assert (Ec : (cx = [] \/ cx = cr) /\ (cy = [] \/ cy = cr)) by (destruct Fc as (_ & F); split; apply F; cbn; auto). assert (Ne : cx <> [] \/ cy <> []) by (destruct Fc as ([I|[I|[]]] & _); subst; auto).
  destruct (C113_add_prod R m r B gd cr x bx gx cx dy by_ gy cy B gd nt (Ok m1) J1 Nc (proj1 Ec) (proj2 Ec) Ne ltac:(auto) O1) as (m1' & E1 & A1). injection E1 as <-.
  destruct (C114_add_prod_XC R cj m yg by_ gy cy rg B gd cr x bx gx cx B gd cr nt (Ok m2) J2) as (m2' & E2 & A2); try assumption; try (tauto; fail).
  { split; [cbn; auto|]. intros c [<-|[<-|[<-|[]]]]; intuition auto. } { right. split; [assumption|]. destruct cy; [left; auto|right; split; [discriminate|auto]]. }
  injection E2 as <-. destruct J1 as (Hr & Hx & _ & _ & _ & _ & FB & Fg & _). destruct J2 as (Hxg & _).
  apply (pairing cj m m1 m2 r rg yg dy x B gd cr by_ gy cy bx gx cx B gd cr (fun a => a)); auto; [apply FB|apply Fg|tauto|]; [cbn; auto|cbn; auto|]. eapply adds_ext; [exact A1|]. intros f _. apply (Ring_theory.Rmul_comm (cth R)).
Qed.
Print Assumptions C114_back1_adjoint.

(* ---- C115: division ---- *)
(* r.add_div(x,y), y without cells: 1/y times x is added; the arrays of x and r may be without cells too *)
Theorem C115_add_div : forall (R : cring) (dv : R -> R -> R) (m : mem (car R)) r br gr x bx gx y by_ gy c B gd nt out,
  joined m r br gr c x bx gx c y by_ gy [] B gd nt -> gr = gd \/ gx = gd -> bg_add_div dv r x y nt m out ->
  exists m', out = Ok m' /\ adds m m' r br gr c B gd c (fun f => cmul (dv c1 (val m y by_ gy [] f)) (val m x bx gx c f)).
Proof.
  intros R dv m r br gr x bx gx y by_ gy c B gd nt out (Hr & Hx & Hy & Pr & Px & Py & FB & Fg & Tr & Sx & Sy & Cm) G O. unfold bg_add_div in O. rewrite (shaped_has_cells _ _ _ _ Hy) in O. cbn [nonempty] in O.
  exact (addc_ok r x y br bx by_ gr gx gy c c [] B gd nt m Hr Hx Hy Pr Px Py FB Fg Tr Sx Sy Cm (fun c => dv c1 c) G eq_refl eq_refl out O).
Qed.
Print Assumptions C115_add_div.
Theorem C115_add_div_back0 : forall (R : cring) (cj : R -> R) (dv : R -> R -> R) (m : mem (car R)) r br gr x bx gx y by_ gy c B gd nt out,
  joined m r br gr c x bx gx c y by_ gy [] B gd nt -> gr = gd \/ gx = gd -> bg_add_div_back0 cj dv r x y nt m out ->
  exists m', out = Ok m' /\ adds m m' r br gr c B gd c (fun f => cmul (dv c1 (cj (val m y by_ gy [] f))) (val m x bx gx c f)).
Proof.
  intros R cj dv m r br gr x bx gx y by_ gy c B gd nt out (Hr & Hx & Hy & Pr & Px & Py & FB & Fg & Tr & Sx & Sy & Cm) G O. unfold bg_add_div_back0 in O. rewrite (shaped_has_cells _ _ _ _ Hy) in O. cbn [nonempty] in O.
  exact (addc_ok r x y br bx by_ gr gx gy c c [] B gd nt m Hr Hx Hy Pr Px Py FB Fg Tr Sx Sy Cm (fun c => dv c1 (cj c)) G eq_refl eq_refl out O).
Qed.
Print Assumptions C115_add_div_back0.
(* rg.add_div_back1_to(yg,x,y): for every batch and grid cell the inner product of the cells of x and rg, divided by the conjugate
   of the square of y, is subtracted from yg *)
Theorem C115_add_div_back1 : forall (R : cring) (cj : R -> R) (dv : R -> R -> R) (m : mem (car R)) rg br gr yg bg_ gg x bx gx y by_ gy c B gd nt out,
  shaped rg br gr c -> shaped yg bg_ gg [] -> shaped x bx gx c -> shaped y by_ gy [] -> 0 < br -> 0 < bg_ -> 0 < bx -> 0 < by_ ->
  fits 1 [br; bx; bg_; by_] B -> fits [] [gr; gx; gg; gy] gd -> gr = gd \/ gx = gd \/ gy = gd -> calm bg_ nt gd ->
  target_ok m yg -> source_ok m yg rg -> source_ok m yg x -> source_ok m yg y -> bg_add_div_back1_to cj dv rg yg x y nt m out ->
  exists m', out = Ok m' /\ adds m m' yg bg_ gg [] B gd [] (fun f =>
    copp (dv (rsum (map (fun jx => cmul (cj (val m x bx gx c (fst f, jx))) (val m rg br gr c (fst f, jx))) (all_indices c)))
             (cj (cmul (val m y by_ gy [] f) (val m y by_ gy [] f))))).
Proof.
  intros R cj dv m rg br gr yg bg_ gg x bx gx y by_ gy c B gd nt out Hr Hg Hx Hy Pr Pg Px Py FB Fg G Cm Tg Sr Sx Sy O. unfold bg_add_div_back1_to in O. rewrite (shaped_has_cells _ _ _ _ Hg), (shaped_has_cells _ _ _ _ Hy) in O. cbn [nonempty] in O.
  destruct (dom4 rg x yg y br gr c bx gx c bg_ gg [] by_ gy [] B gd) as (EB & Eg & HB & Ng & J); try assumption.
  eapply adds_ok; [exact Hg|assumption|apply Fg; cbn; auto|now left| |exact EB|exact Eg|assumption|assumption|constructor|exact J|eapply lone2; eassumption|exact O].
  intros ci vs m1 Hc Rc Rm U. apply right4 in Rc as (rv & xv & gv & yv & -> & Cr & Cx & Cg & Cy). cbn [list_eq_dec]. 
  destruct (div_back1_step cj dv m m1 yg bg_ gg c rg br gr x bx gx y by_ gy ci rv xv gv yv) as (m2 & E & El & U2); try assumption. exists gv, m2. split; [assumption|]. split; [assumption|]. split; [|assumption]. intros jx Hj. rewrite (El jx Hj). inversion Hj. subst. destruct (list_eq_dec Z.eq_dec [] []) as [_|N]; [reflexivity|congruence].
Qed.
Print Assumptions C115_add_div_back1.
(* a divisor with cells is refused *)
Theorem C115_cells_throw : forall (R : cring) (cj : R -> R) (dv : R -> R -> R) (m : mem (car R)) r x y by_ gy cy nt out, shaped y by_ gy cy -> cy <> [] ->
  (bg_add_div dv r x y nt m out -> out = Throw) /\ (bg_add_div_back0 cj dv r x y nt m out -> out = Throw) /\ (forall yg, bg_add_div_back1_to cj dv r yg x y nt m out -> out = Throw) /\
  (forall yg, bg_add_div_back1_to cj dv r y x yg nt m out -> out = Throw).
Proof.
  intros R cj dv m r x y by_ gy cy nt out Hy Nc. unfold bg_add_div, bg_add_div_back0, bg_add_div_back1_to. rewrite (shaped_has_cells _ _ _ _ Hy), (ne_true cy Nc). repeat split; auto. intros yg. now destruct (has_cells yg).
Qed.
Print Assumptions C115_cells_throw.
(* x/y: a new tensor q with q*y = x wherever y is not zero *)
Theorem C115_quotient : forall (R : cring) (dv : R -> R -> R) (m : mem (car R)) k x bx gx c y by_ gy B gd nt out,
  (forall a b, b <> c0 -> cmul (dv a b) b = a) ->
  shaped x bx gx c -> shaped y by_ gy [] -> 0 < bx -> 0 < by_ -> fits 1 [bx; by_] B -> fits [] [gx; gy] gd ->
  (forall a, m k a = None) -> readable m (bv x) -> readable m (bv y) -> calm B nt gd ->
  bg_over dv k x y nt m out ->
  exists rm F, out = Ok rm /\ makes m k B gd c F rm /\ forall f, In f (all_places B gd c) -> val m y by_ gy [] f <> c0 -> cmul (F f) (val m y by_ gy [] f) = val m x bx gx c f.
Proof.
  intros R dv m k x bx gx c y by_ gy B gd nt out Hdv Hx Hy Px Py FB Fg Fk Rx Ry Cm O. unfold bg_over, with_result in O. pose (T := cth R).
  rewrite (proj2 (proj1 (C71_batch2 x y bx gx c by_ gy [] Hx Hy) B) FB), (proj2 (proj1 (C71_grid2 x y bx gx c by_ gy [] Hx Hy) gd) Fg), (proj2 (proj1 (C71_cells2 x y bx gx c by_ gy [] Hx Hy) c) ltac:(split; cbn; intuition auto)) in O. cbn [bind] in O.
  destruct (shaped_nonneg _ _ _ _ Hx) as (_ & Nx & Nc). destruct (shaped_nonneg _ _ _ _ Hy) as (_ & Ny & _).
  assert (HB : 0 < B) by (destruct FB as (I & _); cbn in I; intuition lia). assert (Ng : nonneg gd) by (destruct Fg as (I & _); cbn in I; intuition congruence).
  destruct (bg_zero k B gd c m) as [r m1] eqn:Ez. destruct (zero_ok k B gd c m r m1 ltac:(lia) Ng Nc Ez) as (Hs & Hk & Tr & Z & Om). destruct O as (o & O & ->).
  assert (Eg : (gx = [] \/ gx = gd) /\ (gy = [] \/ gy = gd)) by (destruct Fg as (_ & F); split; apply F; cbn; auto).
  assert (Eb : (bx = 1 \/ bx = B) /\ (by_ = 1 \/ by_ = B)) by (destruct FB as (_ & F); split; apply F; cbn; auto).
  destruct (C115_add_div R dv m1 r B gd x bx gx y by_ gy c B gd nt o) as (m' & -> & A).
  { split; [assumption|]. split; [assumption|]. split; [assumption|]. do 3 (split; [assumption|]). split; [now apply times_shapes|]. split; [now apply times_shapes|]. split; [assumption|]. split; [eapply elsewhere_ok; eassumption|]. split; [eapply elsewhere_ok; eassumption|assumption]. }
  { now left. } { exact O. }
  cbn [bind]. destruct (result_ok k B gd c m r m1 (fun f => cmul (dv c1 (val m y by_ gy [] f)) (val m x bx gx c f)) _ (Ok m') ltac:(lia) Ng Nc Ez (ex_intro _ m' (conj eq_refl A))) as (m'' & E & M).
  { intros f Hf. cbv beta. rewrite (elsewhere_val m m1 k x bx gx c B gd c f), (elsewhere_val m m1 k y by_ gy [] B gd c f); try assumption; intuition congruence. }
  injection E as <-. eexists. eexists. split; [reflexivity|]. split; [exact M|]. intros f _ Hn. cbv beta. rewrite (Ring_theory.Rmul_comm T (dv _ _)), <- (Ring_theory.Rmul_assoc T), Hdv by assumption. rewrite (Ring_theory.Rmul_comm T). apply (Ring_theory.Rmul_1_l T).
Qed.
Print Assumptions C115_quotient.
(* add_div_back0(rg,y) is the gradient of the quotient in its first argument *)
Theorem C115_back0_adjoint : forall (R : cring) (cj : R -> R) (dv : R -> R -> R) (m : mem (car R)) r rg xg dx bx gx y by_ gy c B gd nt m1 m2,
  (forall a b, cj (cadd a b) = cadd (cj a) (cj b)) -> (forall a b, cj (cmul a b) = cmul (cj a) (cj b)) -> (forall a, cj (dv c1 a) = dv c1 (cj a)) ->
  joined m r B gd c dx bx gx c y by_ gy [] B gd nt -> joined m xg bx gx c rg B gd c y by_ gy [] B gd nt ->
  (forall k, in_range k (vdims (bv r)) -> elem0 m (bv r) k = c0) -> (forall k, in_range k (vdims (bv xg)) -> elem0 m (bv xg) k = c0) ->
  bg_add_div dv r dx y nt m (Ok m1) -> bg_add_div_back0 cj dv xg rg y nt m (Ok m2) ->
  over_elems r (fun k => cmul (elem0 m (bv rg) k) (cj (elem0 m1 (bv r) k))) = over_elems xg (fun k => cmul (elem0 m2 (bv xg) k) (cj (elem0 m (bv dx) k))).
Proof.
  intros R cj dv m r rg xg dx bx gx y by_ gy c B gd nt m1 m2 Ca Cm Cd J1 J2 Z Zx O1 O2. pose (T := cth R).
  destruct (C115_add_div R dv m r B gd dx bx gx y by_ gy c B gd nt (Ok m1) J1 ltac:(auto) O1) as (m1' & E1 & A1). injection E1 as <-.
  destruct (C115_add_div_back0 R cj dv m xg bx gx rg B gd y by_ gy c B gd nt (Ok m2) J2 ltac:(auto) O2) as (m2' & E2 & A2). injection E2 as <-.
  destruct J1 as (Hr & Hx & _ & _ & _ & _ & FB & Fg & _). destruct J2 as (Hxg & _).
  apply (pairing cj m m1 m2 r rg xg dx y B gd c bx gx c by_ gy [] B gd c (fun a => dv c1 a)); auto; [apply FB; cbn; auto|apply Fg; cbn; auto| |].
  - eapply adds_ext; [exact A1|]. intros f _. cbv beta. apply (Ring_theory.Rmul_comm T).
  - eapply adds_ext; [exact A2|]. intros f _. cbv beta. rewrite Cd. apply (Ring_theory.Rmul_comm T).
Qed.
Print Assumptions C115_back0_adjoint.
(* ---- examples ---- *)
Lemma runs0 {R : cring} (m : mem (car R)) r br gr cr x bx gx cx y by_ gy cy B gd nt f : joined m r br gr cr x bx gx cx y by_ gy cy B gd nt -> gr = gd \/ gx = gd -> br = 1 \/ nt <= 1 -> exists out, over_cells3 r x y 0 nt f m out.
Proof.
  intros (Hr & Hx & Hy & Pr & Px & Py & FB & Fg & Tr & Sx & Sy & Cm) G Hb. destruct (dom3 r x y br gr cr bx gx cx by_ gy cy B gd Hr Hx Hy Pr Px Py FB Fg G) as (EB & Eg & HB & Ng & J). eapply over_runs; eauto.
  destruct Hb as [->|Hb]; [left; exists r; split; [reflexivity|eapply shaped_getb; eassumption]|now right].
Qed.
Lemma runs2 {R : cring} (m : mem (car R)) r br gr cr x bx gx cx y by_ gy cy B gd nt f : joined m r br gr cr x bx gx cx y by_ gy cy B gd nt -> gx = gd \/ gy = gd -> br = 1 \/ nt <= 1 -> exists out, over_cells3 x y r 2 nt f m out.
Proof.
  intros (Hr & Hx & Hy & Pr & Px & Py & FB & Fg & Tr & Sx & Sy & Cm) G Hb. destruct (dom3 x y r bx gx cx by_ gy cy br gr cr B gd Hx Hy Hr Px Py Pr (rot_fits _ _ _ _ _ FB) (rot_fits _ _ _ _ _ Fg) G) as (EB & Eg & HB & Ng & J). eapply over_runs; eauto.
  destruct Hb as [->|Hb]; [left; exists r; split; [reflexivity|eapply shaped_getb; eassumption]|now right].
Qed.
(* the scalar factor's gradient: for each grid cell, summed over the batches and the cell *)
Example C114_case : exists m', bg_add_prod_back1 (fun a : ZRing => a) (ex_t 0 1 [3] []) (ex_t 4 2 [3] [2]) (ex_t 2 2 [] [2]) 1 ex_mem (Ok m') /\
  elem m' (bv (ex_t 0 1 [3] [])) [0; 1] = Some (42 * 20 + 43 * 21 + 48 * 22 + 49 * 23).
Proof.
  assert (J : joined ex_mem (ex_t 0 1 [3] []) 1 [3] [] (ex_t 4 2 [3] [2]) 2 [3] [2] (ex_t 2 2 [] [2]) 2 [] [2] 2 [3] 1) by ex_join.
  destruct (runs2 ex_mem _ _ _ _ _ _ _ _ _ _ _ _ _ _ 1 (do_inp (fun a : ZRing => a)) J ltac:(auto) ltac:(lia)) as (out & O).
  destruct (C114_add_prod_XC ZRing (fun a => a) ex_mem _ _ _ _ _ _ _ _ _ _ _ _ 2 [3] [2] 1 out J) as (m' & -> & A & _); [split; cbn; intuition auto|discriminate|right; discriminate|right; discriminate|left; discriminate|right; split; [discriminate|left; auto]|exact O|].
  exists m'. split; [exact O|]. rewrite A; [vm_compute; reflexivity|repeat constructor; cbn; lia].
Qed.
(* with conjugation and cells in all three *)
Example C114_cells_case : exists m', bg_add_prod_back0 (fun a : ZRing => a) (ex_t 0 2 [] [2]) (ex_t 4 2 [] [2]) (ex_t 2 1 [] [2]) 1 ex_mem (Ok m') /\ elem m' (bv (ex_t 0 2 [] [2])) [1; 0] = Some (42 * 20).
Proof.
  assert (J : joined ex_mem (ex_t 0 2 [] [2]) 2 [] [2] (ex_t 4 2 [] [2]) 2 [] [2] (ex_t 2 1 [] [2]) 1 [] [2] 2 [] 1) by ex_join.
  destruct (runs0 ex_mem _ _ _ _ _ _ _ _ _ _ _ _ _ _ 1 (do_prodXC (fun a : ZRing => a)) J ltac:(auto) ltac:(lia)) as (out & O).
  destruct (C114_add_prod_XC ZRing (fun a => a) ex_mem _ _ _ _ _ _ _ _ _ _ _ _ 2 [] [2] 1 out J) as (m' & -> & A & _); [split; cbn; intuition auto|discriminate|right; discriminate|right; discriminate|left; discriminate|right; split; [discriminate|right; split; [discriminate|auto]]|exact O|].
  exists m'. split; [exact O|]. rewrite A; [vm_compute; reflexivity|repeat constructor; cbn; lia].
Qed.
(* the hypotheses of the adjoint theorems hold together *)
Example C114_adjoint_case : joined ex_mem (ex_t 0 2 [3] [2]) 2 [3] [2] (ex_t 2 2 [] [2]) 2 [] [2] (ex_t 3 1 [3] []) 1 [3] [] 2 [3] 1 /\ joined ex_mem (ex_t 1 2 [] [2]) 2 [] [2] (ex_t 4 2 [3] [2]) 2 [3] [2] (ex_t 3 1 [3] []) 1 [3] [] 2 [3] 1 /\
  (forall k, in_range k (vdims (bv (ex_t 0 2 [3] [2]))) -> elem0 ex_mem (bv (ex_t 0 2 [3] [2])) k = 0) /\ (forall k, in_range k (vdims (bv (ex_t 1 2 [] [2]))) -> elem0 ex_mem (bv (ex_t 1 2 [] [2])) k = 0) /\
  exists m1 m2, bg_add_prod (ex_t 0 2 [3] [2]) (ex_t 2 2 [] [2]) (ex_t 3 1 [3] []) 1 ex_mem (Ok m1) /\ bg_add_prod_back0 (fun a : ZRing => a) (ex_t 1 2 [] [2]) (ex_t 4 2 [3] [2]) (ex_t 3 1 [3] []) 1 ex_mem (Ok m2) /\
    over_elems (R:=ZRing) (ex_t 1 2 [] [2]) (fun k => elem0 m2 (bv (ex_t 1 2 [] [2])) k * elem0 ex_mem (bv (ex_t 2 2 [] [2])) k) = over_elems (R:=ZRing) (ex_t 0 2 [3] [2]) (fun k => elem0 ex_mem (bv (ex_t 4 2 [3] [2])) k * elem0 m1 (bv (ex_t 0 2 [3] [2])) k).
Proof.
  assert (J1 : joined ex_mem (ex_t 0 2 [3] [2]) 2 [3] [2] (ex_t 2 2 [] [2]) 2 [] [2] (ex_t 3 1 [3] []) 1 [3] [] 2 [3] 1) by ex_join.
  assert (J2 : joined ex_mem (ex_t 1 2 [] [2]) 2 [] [2] (ex_t 4 2 [3] [2]) 2 [3] [2] (ex_t 3 1 [3] []) 1 [3] [] 2 [3] 1) by ex_join.
  assert (Z1 : forall k, in_range k (vdims (bv (ex_t 0 2 [3] [2]))) -> elem0 ex_mem (bv (ex_t 0 2 [3] [2])) k = 0) by (intros k Hk; unfold elem0, elem; now rewrite (vaddr_in_range (bv (ex_t 0 2 [3] [2])) k (proj2 (proj2 (proj1 J1))) Hk)).
  assert (Z2 : forall k, in_range k (vdims (bv (ex_t 1 2 [] [2]))) -> elem0 ex_mem (bv (ex_t 1 2 [] [2])) k = 0) by (intros k Hk; unfold elem0, elem; now rewrite (vaddr_in_range (bv (ex_t 1 2 [] [2])) k (proj2 (proj2 (proj1 J2))) Hk)).
  split; [exact J1|]. split; [exact J2|]. split; [exact Z1|]. split; [exact Z2|].
  destruct (C113_runs ZRing ex_mem _ _ _ _ _ _ _ _ _ _ _ _ 2 [3] 1 J1 ltac:(auto) ltac:(lia)) as (o1 & O1).
  destruct (C113_add_prod ZRing ex_mem _ _ _ _ _ _ _ _ _ _ _ _ 2 [3] 1 o1 J1) as (m1 & -> & _); [discriminate|auto|auto|left; discriminate|auto|exact O1|].
  destruct (runs0 ex_mem _ _ _ _ _ _ _ _ _ _ _ _ _ _ 1 (do_addc (fun a : ZRing => a)) J2 ltac:(auto) ltac:(lia)) as (o2 & O2).
  destruct (C114_add_prod_XC ZRing (fun a => a) ex_mem _ _ _ _ _ _ _ _ _ _ _ _ 2 [3] [2] 1 o2 J2) as (m2 & -> & _); [split; cbn; intuition auto|discriminate|right; discriminate|left; discriminate|left; discriminate|right; split; [discriminate|right; split; [discriminate|auto]]|exact O2|].
  exists m1, m2. split; [exact O1|]. split; [exact O2|]. symmetry.
  exact (C114_back0_adjoint ZRing (fun a => a) ex_mem _ _ _ _ _ _ _ _ _ _ _ 2 [3] [2] 1 m1 m2 ltac:(auto) ltac:(auto) J1 J2 ltac:(split; cbn; intuition auto) ltac:(discriminate) Z1 Z2 O1 O2).
Qed.
(* a division that is exact where it is used: quotients by the units of Z *)
Definition ex_dv (a b : car ZRing) : car ZRing := a * b.
Definition ex_unit : mem (car ZRing) := fun b a => if b =? 3 then Some (if a =? 1 then -1 else 1) else ex_mem b a.
Lemma unit_joined kr br gr cr kx bx gx cx ky by_ gy cy B gd nt : joined ex_mem (ex_t kr br gr cr) br gr cr (ex_t kx bx gx cx) bx gx cx (ex_t ky by_ gy cy) by_ gy cy B gd nt -> joined ex_unit (ex_t kr br gr cr) br gr cr (ex_t kx bx gx cx) bx gx cx (ex_t ky by_ gy cy) by_ gy cy B gd nt.
Proof.
  assert (Rd : forall v, readable ex_mem v -> readable ex_unit v) by (intros v Rv ix Hi; specialize (Rv ix Hi); unfold elem, ex_unit in *; destruct (vaddr v ix) as [[b a]| |]; try congruence; destruct (b =? 3); [discriminate|assumption]).
  intros (H1 & H2 & H3 & H4 & H5 & H6 & H7 & H8 & (Dr & Rr) & (Rx & Dx) & (Ry & Dy) & Cm). do 8 (split; [assumption|]). repeat split; auto.
Qed.
Example C115_case : exists m', bg_add_div ex_dv (ex_t 0 2 [3] [2]) (ex_t 2 2 [] [2]) (ex_t 3 1 [3] []) 1 ex_unit (Ok m') /\ elem m' (bv (ex_t 0 2 [3] [2])) [1; 1; 1] = Some (-23) /\ elem m' (bv (ex_t 0 2 [3] [2])) [1; 2; 0] = Some 22.
Proof.
  assert (J : joined ex_unit (ex_t 0 2 [3] [2]) 2 [3] [2] (ex_t 2 2 [] [2]) 2 [] [2] (ex_t 3 1 [3] []) 1 [3] [] 2 [3] 1) by (apply unit_joined; ex_join).
  destruct (runs0 ex_unit _ _ _ _ _ _ _ _ _ _ _ _ _ _ 1 (do_addc (fun a : ZRing => ex_dv 1 a)) J ltac:(auto) ltac:(lia)) as (out & O).
  destruct (C115_add_div ZRing ex_dv ex_unit _ _ _ _ _ _ _ _ _ [2] 2 [3] 1 out J) as (m' & -> & A & _); [auto|exact O|].
  exists m'. split; [exact O|]. split; (rewrite A; [vm_compute; reflexivity|repeat constructor; cbn; lia]).
Qed.
(* the gradient of the divisor *)
Example C115_back1_case : exists m', bg_add_div_back1_to (fun a : ZRing => a) ex_dv (ex_t 4 2 [3] [2]) (ex_t 0 1 [3] []) (ex_t 2 2 [] [2]) (ex_t 3 1 [3] []) 1 ex_unit (Ok m') /\
  elem m' (bv (ex_t 0 1 [3] [])) [0; 1] = Some (- (42 * 20 + 43 * 21) - (48 * 22 + 49 * 23)).
Proof.
  assert (J : joined ex_unit (ex_t 0 1 [3] []) 1 [3] [] (ex_t 4 2 [3] [2]) 2 [3] [2] (ex_t 2 2 [] [2]) 2 [] [2] 2 [3] 1) by (apply unit_joined; ex_join).
  assert (J' : joined ex_unit (ex_t 0 1 [3] []) 1 [3] [] (ex_t 4 2 [3] [2]) 2 [3] [2] (ex_t 3 1 [3] []) 1 [3] [] 2 [3] 1) by (apply unit_joined; ex_join).
  destruct J as (Hg & Hr & Hx & Pg & Pr & Px & _ & _ & Tg & Sr & Sx & Cm). destruct J' as (_ & _ & Hy & _ & _ & Py & _ & _ & _ & _ & Sy & _).
  assert (FB : fits 1 [2; 2; 1; 1] 2) by (split; cbn; intuition auto). assert (Fg : fits [] [[3]; []; [3]; [3]] [3]) by (split; cbn; intuition auto).
  destruct (dom4 _ _ _ _ _ _ _ _ _ _ _ _ _ _ _ _ 2 [3] Hr Hx Hg Hy Pr Px Pg Py FB Fg ltac:(auto)) as (EB & Eg & HB & Ng & J).
  destruct (over_runs _ 2 [3] 2 1 (do_div_back1 (fun a : ZRing => a) ex_dv) ex_unit _ _ EB Eg Ng J ltac:(lia)) as (out & O).
  destruct (C115_add_div_back1 ZRing (fun a => a) ex_dv ex_unit _ _ _ _ _ _ _ _ _ _ _ _ [2] 2 [3] 1 out Hr Hg Hx Hy Pr Pg Px Py FB Fg ltac:(auto) Cm Tg Sr Sx Sy O) as (m' & -> & A & _).
  exists m'. split; [exact O|]. rewrite A; [vm_compute; reflexivity|repeat constructor; cbn; lia].
Qed.
