(* Prop_BGprod.v -- C113-C117: products, quotients, matrix products and views of batched and gridded tensors. *)
From Verif Require Import Base BaseFacts Model_Index Model_View Spec_Index Proofs_Index Spec_View Proofs_View Model_Tensor Spec_Tensor Proofs_Tensor Proofs_Tensor2 Proofs_Tensor3 Model_Threads Model_BG Spec_BG Proofs_BG Proofs_BG2 Proofs_BG3 Prop_BG Model_BGprod Spec_BGprod Proofs_BGprod Proofs_BGprod2 Proofs_BGprod3 Proofs_BGprod4.
From Coq Require Import Permutation.
Local Open Scope Z_scope.

Lemma adds_ext {R : cring} (m m' : mem (car R)) r b g c B gd cd F F' : adds m m' r b g c B gd cd F -> (forall f, In f (all_places B gd cd) -> F f = F' f) -> adds m m' r b g c B gd cd F'.
Proof. intros (E & U) H. split; [|assumption]. intros k Hk. rewrite (E k Hk). do 2 f_equal. apply rsum_ext. intros f Hf. apply H. now apply filter_In in Hf. Qed.

(* ---- C113: elementwise products ---- *)
(* r.add_prod(x,y), r having cells: for every batch, grid cell and index inside the cell the product of the elements of x
   and y is added to the element of r *)
Theorem C113_add_prod : forall (R : cring) (m : mem (car R)) r br gr cr x bx gx cx y by_ gy cy B gd nt out,
  joined m r br gr cr x bx gx cx y by_ gy cy B gd nt -> cr <> [] -> (cx = [] \/ cx = cr) -> (cy = [] \/ cy = cr) -> (cx <> [] \/ cy <> []) ->
  (gr = gd \/ cx = [] /\ gy = gd \/ cx <> [] /\ gx = gd) ->
  bg_add_prod r x y nt m out ->
  exists m', out = Ok m' /\ adds m m' r br gr cr B gd cr (fun f => cmul (val m x bx gx cx f) (val m y by_ gy cy f)).
Proof.
  intros R m r br gr cr x bx gx cx y by_ gy cy B gd nt out (Hr & Hx & Hy & Pr & Px & Py & FB & Fg & Tr & Sx & Sy & Cm) Nr Ex Ey Ne G O. pose (Rth := cth R).
  unfold bg_add_prod, few_cells in O. rewrite (shaped_has_cells _ _ _ _ Hr), (shaped_has_cells _ _ _ _ Hx), (shaped_has_cells _ _ _ _ Hy), (ne_true cr Nr) in O.
  destruct cx as [|c1 cx], cy as [|c2 cy]; cbn [nonempty Z.b2z negb] in O.
  - intuition congruence.
  - change (0 + 1 + 1 <? 2) with false in O. cbv iota in O. destruct Ey as [Ey|Ey]; [discriminate|].
    destruct (addc_ok r y x br by_ bx gr gy gx cr (c2 :: cy) [] B gd nt m Hr Hy Hx Pr Py Px (swap_fits _ _ _ _ _ FB) (swap_fits _ _ _ _ _ Fg) Tr Sy Sx Cm (fun c => c) ltac:(intuition congruence) Ey eq_refl out O) as (m' & -> & A).
    exists m'. split; [reflexivity|assumption].
  - change (1 + 0 + 1 <? 2) with false in O. cbv iota in O. destruct Ex as [Ex|Ex]; [discriminate|].
    destruct (addc_ok r x y br bx by_ gr gx gy cr (c1 :: cx) [] B gd nt m Hr Hx Hy Pr Px Py FB Fg Tr Sx Sy Cm (fun c => c) ltac:(intuition congruence) Ex eq_refl out O) as (m' & -> & A).
    exists m'. split; [reflexivity|]. eapply adds_ext; [exact A|]. intros f _. cbv beta. apply (Ring_theory.Rmul_comm Rth).
  - change (1 + 1 + 1 <? 2) with false in O. cbv iota in O. destruct Ex as [Ex|Ex]; [discriminate|]. destruct Ey as [Ey|Ey]; [discriminate|].
    exact (prod_ok r x y br bx by_ gr gx gy cr (c1 :: cx) (c2 :: cy) B gd nt m Hr Hx Hy Pr Px Py FB Fg Tr Sx Sy Cm f_prod cmul (fun v a b => eq_refl) ltac:(intuition congruence) Ex Ey out O).
Qed.
Print Assumptions C113_add_prod.
(* it can always run: a traversal in one thread has an outcome *)
Theorem C113_runs : forall (R : cring) (m : mem (car R)) r br gr cr x bx gx cx y by_ gy cy B gd nt,
  joined m r br gr cr x bx gx cx y by_ gy cy B gd nt -> (gr = gd \/ cx = [] /\ gy = gd \/ cx <> [] /\ gx = gd) -> br = 1 \/ nt <= 1 -> exists out, bg_add_prod r x y nt m out.
Proof.
  intros R m r br gr cr x bx gx cx y by_ gy cy B gd nt (Hr & Hx & Hy & Pr & Px & Py & FB & Fg & Tr & Sx & Sy & Cm) G Hb. unfold bg_add_prod.
  assert (L : forall a b, lone [r; a; b] 0 \/ nt <= 1) by (intros a b; destruct Hb as [->|Hb]; [left; exists r; split; [reflexivity|eapply shaped_getb; eassumption]|now right]).
  destruct (few_cells r x y); [now eexists|]. rewrite (shaped_has_cells _ _ _ _ Hx), (shaped_has_cells _ _ _ _ Hy).
  destruct cx as [|c1 cx]; cbn [nonempty negb].
  - destruct (dom3 r y x br gr cr by_ gy cy bx gx [] B gd Hr Hy Hx Pr Py Px (swap_fits _ _ _ _ _ FB) (swap_fits _ _ _ _ _ Fg) ltac:(intuition congruence)) as (EB & Eg & HB & Ng & J). unfold over_cells3. eapply over_runs; eauto.
  - destruct (dom3 r x y br gr cr bx gx (c1 :: cx) by_ gy cy B gd Hr Hx Hy Pr Px Py FB Fg ltac:(intuition congruence)) as (EB & Eg & HB & Ng & J). unfold over_cells3. destruct (nonempty cy); cbn [negb]; eapply over_runs; eauto.
Qed.
Print Assumptions C113_runs.
Lemma times_shapes {A} (t : A) a b d : fits t [a; b] d -> fits t [d; a; b] d.
Proof. intros (I & F). split; [now left|]. intros c [->|Hc]; [now right|now apply F]. Qed.
(* x*y: a new tensor with the common batch size, grid and cells and the products as its elements *)
Theorem C113_times : forall (R : cring) (m : mem (car R)) k x bx gx cx y by_ gy cy B gd cc nt out,
  shaped x bx gx cx -> shaped y by_ gy cy -> 0 < bx -> 0 < by_ -> fits 1 [bx; by_] B -> fits [] [gx; gy] gd -> fits [] [cx; cy] cc -> cc <> [] ->
  (forall a, m k a = None) -> readable m (bv x) -> readable m (bv y) -> calm B nt gd ->
  bg_times k x y nt m out ->
  exists rm, out = Ok rm /\ makes m k B gd cc (fun f => cmul (val m x bx gx cx f) (val m y by_ gy cy f)) rm.
Proof.
  intros R m k x bx gx cx y by_ gy cy B gd cc nt out Hx Hy Px Py FB Fg Fc Nc Fk Rx Ry Cm O. unfold bg_times, with_result in O.
  rewrite (proj2 (proj1 (C71_batch2 x y bx gx cx by_ gy cy Hx Hy) B) FB), (proj2 (proj1 (C71_grid2 x y bx gx cx by_ gy cy Hx Hy) gd) Fg), (proj2 (proj1 (C71_cells2 x y bx gx cx by_ gy cy Hx Hy) cc) Fc) in O. cbn [bind] in O.
  destruct (shaped_nonneg _ _ _ _ Hx) as (_ & Nx & Ncx). destruct (shaped_nonneg _ _ _ _ Hy) as (_ & Ny & Ncy).
  assert (HB : 0 < B) by (destruct FB as (I & _); cbn in I; intuition lia). assert (Ng : nonneg gd) by (destruct Fg as (I & _); cbn in I; intuition congruence). assert (Ncc : nonneg cc) by (destruct Fc as (I & _); cbn in I; intuition congruence).
  destruct (bg_zero k B gd cc m) as [r m1] eqn:Ez. destruct (zero_ok k B gd cc m r m1 ltac:(lia) Ng Ncc Ez) as (Hs & Hk & Tr & Z & Om). destruct O as (o & O & ->).
  assert (Ec : (cx = [] \/ cx = cc) /\ (cy = [] \/ cy = cc)) by (destruct Fc as (_ & F); split; apply F; cbn; auto).
  assert (Eg : (gx = [] \/ gx = gd) /\ (gy = [] \/ gy = gd)) by (destruct Fg as (_ & F); split; apply F; cbn; auto).
  assert (Eb : (bx = 1 \/ bx = B) /\ (by_ = 1 \/ by_ = B)) by (destruct FB as (_ & F); split; apply F; cbn; auto).
  assert (Ne : cx <> [] \/ cy <> []) by (destruct Fc as ([I|[I|[]]] & _); subst; auto).
  destruct (C113_add_prod R m1 r B gd cc x bx gx cx y by_ gy cy B gd nt o) as (m' & -> & A).
  { split; [assumption|]. split; [assumption|]. split; [assumption|]. do 3 (split; [assumption|]). split; [now apply times_shapes|]. split; [now apply times_shapes|]. split; [assumption|]. split; [eapply elsewhere_ok; eassumption|]. split; [eapply elsewhere_ok; eassumption|assumption]. }
  { assumption. } { apply Ec. } { apply Ec. } { assumption. } { now left. } { exact O. }
  cbn [bind]. destruct (result_ok k B gd cc m r m1 (fun f => cmul (val m x bx gx cx f) (val m y by_ gy cy f)) _ (Ok m') ltac:(lia) Ng Ncc Ez (ex_intro _ m' (conj eq_refl A))) as (m'' & E & M).
  { intros f Hf. cbv beta. rewrite (elsewhere_val m m1 k x bx gx cx B gd cc f), (elsewhere_val m m1 k y by_ gy cy B gd cc f); try assumption; intuition congruence. }
  injection E as <-. eauto.
Qed.
Print Assumptions C113_times.
(* not without cells: if fewer than two of r, x, y have cells add_prod prints that it is not implemented and returns, so
   that the product of two tensors without cells is zero *)
Theorem C113_few_cells_refuted : forall (R : cring) (m : mem (car R)) r br gr cr x bx gx cx y by_ gy cy nt out,
  shaped r br gr cr -> shaped x bx gx cx -> shaped y by_ gy cy -> (cr = [] /\ cx = []) \/ (cr = [] /\ cy = []) \/ (cx = [] /\ cy = []) -> bg_add_prod r x y nt m out -> out = Ok m.
Proof.
  intros R m r br gr cr x bx gx cx y by_ gy cy nt out Hr Hx Hy Hc O. unfold bg_add_prod, few_cells in O. rewrite (shaped_has_cells _ _ _ _ Hr), (shaped_has_cells _ _ _ _ Hx), (shaped_has_cells _ _ _ _ Hy) in O.
  replace (_ <? 2) with true in O; [assumption|]. destruct Hc as [(-> & ->)|[(-> & ->)|(-> & ->)]]; cbn [nonempty Z.b2z]; [destruct (nonempty cy)|destruct (nonempty cx)|destruct (nonempty cr)]; reflexivity.
Qed.
Print Assumptions C113_few_cells_refuted.
Theorem C113_scalars_refuted : forall (R : cring) (m : mem (car R)) k x bx gx y by_ gy B gd nt out,
  shaped x bx gx [] -> shaped y by_ gy [] -> 0 < bx -> 0 < by_ -> fits 1 [bx; by_] B -> fits [] [gx; gy] gd -> (forall a, m k a = None) ->
  bg_times k x y nt m out -> exists rm, out = Ok rm /\ makes m k B gd [] (fun _ => c0) rm.
Proof.
  intros R m k x bx gx y by_ gy B gd nt out Hx Hy Px Py FB Fg Fk O. unfold bg_times, with_result in O.
  rewrite (proj2 (proj1 (C71_batch2 x y bx gx [] by_ gy [] Hx Hy) B) FB), (proj2 (proj1 (C71_grid2 x y bx gx [] by_ gy [] Hx Hy) gd) Fg), (proj2 (proj1 (C71_cells2 x y bx gx [] by_ gy [] Hx Hy) []) ltac:(split; cbn; intuition auto)) in O. cbn [bind] in O.
  destruct (shaped_nonneg _ _ _ _ Hx) as (_ & Nx & _). destruct (shaped_nonneg _ _ _ _ Hy) as (_ & Ny & _).
  assert (HB : 0 < B) by (destruct FB as (I & _); cbn in I; intuition lia). assert (Ng : nonneg gd) by (destruct Fg as (I & _); cbn in I; intuition congruence).
  destruct (bg_zero k B gd [] m) as [r m1] eqn:Ez. destruct (zero_ok k B gd [] m r m1 ltac:(lia) Ng ltac:(constructor) Ez) as (Hs & Hk & (Dr & Rr) & Z & Om). destruct O as (o & O & ->).
  apply (C113_few_cells_refuted R m1 r B gd [] x bx gx [] y by_ gy [] nt o Hs Hx Hy) in O; [|auto]. subst o. cbn [bind]. eexists. split; [reflexivity|]. unfold makes. cbn [fst snd]. split; [assumption|]. split; [assumption|]. split; [|assumption].
  intros f Hf. assert (I : in_range (part B gd [] f) (vdims (bv r))) by (destruct Hs as (-> & _); eapply part_range; eauto). specialize (Z _ I). specialize (Rr _ I). unfold elem0 in Z. destruct (elem m1 (bv r) (part B gd [] f)); congruence.
Qed.
Print Assumptions C113_scalars_refuted.
(* nor into a tensor without cells: nothing is added where the sum of the products over the cell would be *)
Theorem C113_inner_refuted : forall (R : cring) (m : mem (car R)) r br gr x bx gx y by_ gy c B gd nt out,
  joined m r br gr [] x bx gx c y by_ gy c B gd nt -> c <> [] -> gr = gd \/ gx = gd -> bg_add_prod r x y nt m out -> out = Ok m.
Proof.
  intros R m r br gr x bx gx y by_ gy c B gd nt out (Hr & Hx & Hy & Pr & Px & Py & FB & Fg & Tr & Sx & Sy & Cm) Nc G O.
  unfold bg_add_prod, few_cells in O. rewrite (shaped_has_cells _ _ _ _ Hr), (shaped_has_cells _ _ _ _ Hx), (shaped_has_cells _ _ _ _ Hy), (ne_true c Nc) in O. cbn [nonempty Z.b2z negb] in O. change (1 + 1 + 0 <? 2) with false in O. cbv iota in O.
  destruct (dom3 r x y br gr [] bx gx c by_ gy c B gd Hr Hx Hy Pr Px Py FB Fg G) as (EB & Eg & HB & Ng & J).
  destruct (over_calls [r; x; y] _ _ B gd 0 nt do_prod m out EB Eg HB Ng J (lone0 r [x; y] br gr [] nt gd Hr Cm) O) as (l & -> & _ & Fl). apply run_same. intros [ci vs] Hi. rewrite Forall_forall in Fl. specialize (Fl _ Hi).
  apply right3 in Fl as (rv & xv & yv & -> & Cr & Cx & Cy). cbn [snd]. unfold do_prod, tv_add_prod.
  destruct (cell_facts _ _ _ _ _ _ _ Hr Cr) as (Er & Wr & _). destruct (cell_facts _ _ _ _ _ _ _ Hx Cx) as (Ex & Wx & _). destruct (cell_facts _ _ _ _ _ _ _ Hy Cy) as (Ey & Wy & _).
  apply rank0_none; congruence.
Qed.
Print Assumptions C113_inner_refuted.
(* ---- examples ---- *)
(* blocks 0 and 1 hold zeros, blocks 2 to 7 different integers, the others nothing *)
Definition ex_mem : mem (car ZRing) := fun b a => if (0 <=? b) && (b <? 8) then Some (if b <? 2 then 0 else 10 * b + a) else None.
Definition ex_t (k b : Z) (g c : list Z) : bg := BG (fresh_view k (b :: g ++ c)) (Z.of_nat (length g)).
Lemma ex_shaped k b g c : nonneg (b :: g ++ c) -> shaped (ex_t k b g c) b g c.
Proof. intro N. split; [reflexivity|]. split; [reflexivity|]. split; [apply strides_of_length|assumption]. Qed.
Lemma ex_readable k b g c : nonneg (b :: g ++ c) -> 0 <= k < 8 -> readable ex_mem (bv (ex_t k b g c)).
Proof.
  intros N Hk ix Hi. unfold elem. rewrite vaddr_in_range; [|apply (ex_shaped k b g c N)|assumption]. cbn [ex_t bv fresh_view vblk]. unfold ex_mem. replace ((0 <=? k) && (k <? 8)) with true by lia. discriminate.
Qed.
Lemma ex_disjoint k b g c k' b' g' c' : k <> k' -> disjoint_views (bv (ex_t k b g c)) (bv (ex_t k' b' g' c')).
Proof.
  intros Hk ix jx Hi Hj E. destruct (vaddr (bv (ex_t k b g c)) ix) as [p| |] eqn:E1.
  - assert (E2 := vaddr_blk _ _ _ E1). symmetry in E. apply vaddr_blk in E. cbn in E, E2. congruence.
  - unfold vaddr, offs in E1. destruct (_ <=? _)%nat eqn:El in E1; [discriminate|]. apply in_range_length in Hi. apply Nat.leb_gt in El. cbn [ex_t bv fresh_view vstr vdims] in *. rewrite strides_of_length in El. lia.
  - unfold vaddr, offs in E1. destruct (_ <=? _)%nat in E1; discriminate.
Qed.
Lemma ex_joined kr br gr cr kx bx gx cx ky by_ gy cy B gd nt : Forall (fun l => nonneg l) [br :: gr ++ cr; bx :: gx ++ cx; by_ :: gy ++ cy] -> 0 < br -> 0 < bx -> 0 < by_ -> fits 1 [br; bx; by_] B -> fits [] [gr; gx; gy] gd ->
  Forall (fun k => 0 <= k < 8) [kr; kx; ky] -> kr <> kx -> kr <> ky -> calm br nt gd -> joined ex_mem (ex_t kr br gr cr) br gr cr (ex_t kx bx gx cx) bx gx cx (ex_t ky by_ gy cy) by_ gy cy B gd nt.
Proof.
  intros N Pr Px Py FB Fg K N1 N2 Cm. inversion N as [|? ? Nr N']; subst. inversion N' as [|? ? Nx N'']; subst. inversion N'' as [|? ? Ny _]; subst. inversion K as [|? ? Kr K']; subst. inversion K' as [|? ? Kx K'']; subst. inversion K'' as [|? ? Ky _]; subst.
  split; [now apply ex_shaped|]. split; [now apply ex_shaped|]. split; [now apply ex_shaped|]. do 5 (split; [assumption|]).
  split; [split; [now apply Proofs_Ops.fresh_distinct|now apply ex_readable]|]. split; [split; [now apply ex_readable|now apply ex_disjoint]|]. split; [split; [now apply ex_readable|now apply ex_disjoint]|assumption].
Qed.
Ltac ex_join := apply ex_joined; [repeat constructor; lia|lia|lia|lia|split; cbn; intuition auto|split; cbn; intuition auto|repeat constructor; lia|lia|lia|unfold calm; lia].
(* two batches of a 3-cell grid; x without grid, y without cells and with one batch *)
Definition ex_r := ex_t 0 2 [3] [2].
Definition ex_px := ex_t 2 2 [] [2].
Definition ex_py := ex_t 3 1 [3] [].
Example C113_case : joined ex_mem ex_r 2 [3] [2] ex_px 2 [] [2] ex_py 1 [3] [] 2 [3] 1 /\
  exists m', bg_add_prod ex_r ex_px ex_py 1 ex_mem (Ok m') /\ elem m' (bv ex_r) [1; 2; 1] = Some (23 * 32) /\ elem m' (bv ex_r) [0; 1; 0] = Some (20 * 31).
Proof.
  assert (J : joined ex_mem ex_r 2 [3] [2] ex_px 2 [] [2] ex_py 1 [3] [] 2 [3] 1) by ex_join. split; [exact J|].
  destruct (C113_runs ZRing ex_mem ex_r 2 [3] [2] ex_px 2 [] [2] ex_py 1 [3] [] 2 [3] 1 J ltac:(auto) ltac:(lia)) as (out & O).
  destruct (C113_add_prod ZRing ex_mem ex_r 2 [3] [2] ex_px 2 [] [2] ex_py 1 [3] [] 2 [3] 1 out J) as (m' & -> & A & _); [discriminate|auto|auto|left; discriminate|auto|exact O|].
  exists m'. split; [exact O|]. split; (rewrite A; [vm_compute; reflexivity|repeat constructor; cbn; lia]).
Qed.
(* the sum over a broadcast target: r has one batch and no grid *)
Example C113_sum_case : exists m', bg_add_prod (ex_t 0 1 [] [2]) (ex_t 2 2 [3] [2]) ex_py 1 ex_mem (Ok m') /\
  elem m' (bv (ex_t 0 1 [] [2])) [0; 1] = Some (21 * 30 + 23 * 31 + 25 * 32 + 27 * 30 + 29 * 31 + 31 * 32).
Proof.
  assert (J : joined ex_mem (ex_t 0 1 [] [2]) 1 [] [2] (ex_t 2 2 [3] [2]) 2 [3] [2] ex_py 1 [3] [] 2 [3] 1) by ex_join.
  assert (G : [] = [3] \/ [2] = [] /\ [3] = [3] \/ [2] <> [] /\ [3] = [3]) by (right; right; split; [discriminate|reflexivity]).
  destruct (C113_runs _ _ _ _ _ _ _ _ _ _ _ _ _ _ _ _ _ J G ltac:(lia)) as (out & O).
  destruct (C113_add_prod ZRing ex_mem _ _ _ _ _ _ _ _ _ _ _ _ _ _ _ out J) as (m' & -> & A & _); [discriminate|auto|auto|left; discriminate|exact G|exact O|].
  exists m'. split; [exact O|]. rewrite A; [vm_compute; reflexivity|repeat constructor; cbn; lia].
Qed.
(* the claim is false where only the scalar factor has a grid: the first cell of the grid counts for all *)
Theorem C113_third_grid_refuted : exists r x y m', joined ex_mem r 1 [] [2] x 1 [] [2] y 1 [3] [] 1 [3] 1 /\ bg_add_prod r x y 1 ex_mem (Ok m') /\
  ~ adds ex_mem m' r 1 [] [2] 1 [3] [2] (fun f => cmul (val ex_mem x 1 [] [2] f) (val ex_mem y 1 [3] [] f)) /\ elem m' (bv r) [0; 1] = Some (21 * 30).
Proof.
  set (r := ex_t 0 1 [] [2]). set (x := ex_t 2 1 [] [2]). set (y := ex_t 3 1 [3] []).
  assert (O : exists tr, cell_trace [r; x; y] 1 [] 0 1 tr /\ In (Ev Return) tr /\ trace_calls tr = [(0, [], [View 0 0 [2] [1]; View 2 0 [2] [1]; View 3 0 [3] [1]])]).
  { eexists. split; [eexists; eexists; eexists; split; [reflexivity|]; exists []; rewrite app_nil_r; vm_compute; reflexivity|]. split; [vm_compute; repeat (try (left; reflexivity); right)|reflexivity]. }
  destruct O as (tr & T & Rt & Ec). destruct (run_calls (do_addc (fun c => c)) (trace_calls tr) ex_mem) as [m'| |] eqn:Er; [|rewrite Ec in Er; vm_compute in Er; discriminate Er|rewrite Ec in Er; vm_compute in Er; discriminate Er].
  exists r, x, y, m'. split; [ex_join|]. split.
  { unfold bg_add_prod. change (few_cells r x y) with false. change (has_cells x) with true. change (has_cells y) with false. cbn [negb]. unfold over_cells3, over_cells. change (dominant_batch3 r x y) with (Ok 1). change (dominant_gdims3 r x y) with (Ok (@nil Z)). cbn [bind]. exists tr. auto. }
  assert (E : elem m' (bv r) [0; 1] = Some (21 * 30)).
  { rewrite Ec in Er. assert (E : match run_calls (do_addc (fun c => c)) [(0, [], [View 0 0 [2] [1]; View 2 0 [2] [1]; View 3 0 [3] [1]])] ex_mem with Ok m' => elem m' (bv r) [0; 1] | _ => None end = Some (21 * 30)) by (vm_compute; reflexivity). rewrite Er in E. exact E. }
  split; [|exact E]. intros (A & _). rewrite A in E by (repeat constructor; cbn; lia). vm_compute in E. discriminate E.
Qed.
Print Assumptions C113_third_grid_refuted.
Example C113_times_case : exists rm, bg_times 9 ex_px ex_py 1 ex_mem (Ok rm) /\ makes ex_mem 9 2 [3] [2] (fun f => cmul (val ex_mem ex_px 2 [] [2] f) (val ex_mem ex_py 1 [3] [] f)) rm /\ elem (snd rm) (bv (fst rm)) [1; 2; 1] = Some (23 * 32).
Proof.
  assert (Hx : shaped ex_px 2 [] [2]) by (apply ex_shaped; repeat constructor; lia). assert (Hy : shaped ex_py 1 [3] []) by (apply ex_shaped; repeat constructor; lia).
  assert (O : exists out, bg_times 9 ex_px ex_py 1 ex_mem out).
  { unfold bg_times, with_result. change (dominant_batch2 ex_px ex_py) with (Ok 2). change (dominant_gdims2 ex_px ex_py) with (Ok [3]). change (dominant_cdims2 ex_px ex_py) with (Ok [2]). cbn [bind]. destruct (bg_zero 9 2 [3] [2] ex_mem) as [r m1] eqn:Ez.
    destruct (zero_ok 9 2 [3] [2] ex_mem r m1 ltac:(lia) ltac:(repeat constructor; lia) ltac:(repeat constructor; lia) Ez) as (Hs & Hk & Tr & _ & Om).
    destruct (C113_runs ZRing m1 r 2 [3] [2] ex_px 2 [] [2] ex_py 1 [3] [] 2 [3] 1) as (o & O); [|auto|lia|exists (do m' <- o; Ok (r, m')); exists o; split; [exact O|reflexivity]].
    split; [exact Hs|]. split; [exact Hx|]. split; [exact Hy|]. do 3 (split; [lia|]). split; [split; cbn; intuition auto|]. split; [split; cbn; intuition auto|]. split; [exact Tr|].
    split; [eapply (elsewhere_ok ex_mem m1 9); [reflexivity|exact Om|apply ex_readable; [repeat constructor; lia|lia]|exact Hk]|]. split; [eapply (elsewhere_ok ex_mem m1 9); [reflexivity|exact Om|apply ex_readable; [repeat constructor; lia|lia]|exact Hk]|right; left; lia]. }
  destruct O as (out & O).
  destruct (C113_times ZRing ex_mem 9 ex_px 2 [] [2] ex_py 1 [3] [] 2 [3] [2] 1 out Hx Hy) as (rm & -> & M); [lia|lia|split; cbn; intuition auto|split; cbn; intuition auto|split; cbn; intuition auto|discriminate|reflexivity|apply ex_readable; [repeat constructor; lia|lia]|apply ex_readable; [repeat constructor; lia|lia]|right; left; lia|exact O|].
  exists rm. split; [exact O|]. split; [exact M|]. destruct M as (_ & _ & E & _). apply (E (1, [2], [1])). vm_compute. repeat (try (left; reflexivity); right).
Qed.
