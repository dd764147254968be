(* Proofs_Gtensor4.v -- stand-alone tensors: copies, conversions and products in place. *)
From Verif Require Import Base BaseFacts Model_Index Model_View Model_Tensor Model_Gtensor
  Spec_Index Spec_View Spec_Tensor Spec_Gtensor Proofs_Index Proofs_View2 Proofs_Sparse Proofs_Gtensor Proofs_Gtensor2 Proofs_Gtensor3.
Local Open Scope Z_scope.

Section Copies.
Context {V : Type}.
Notation heapV := (heap V).
Lemma new_str_ok (j : V) k dims st n (h : heapV) : 0 <= n -> heap_ok h -> exists h' b, gnew_str j k dims st n h = Ok (GT k 0 dims st n n (Some b) false, h') /\
  heap_ok h' /\ ~ In b (hlive h) /\ hlive h' = b :: hlive h /\ (forall b' a, b' <> b -> hmem h' b' a = hmem h b' a) /\ (forall a, hmem h' b a <> None <-> 0 <= a < n).
Proof.
  intros Hn Hok. unfold gnew_str. destruct (new_ok j n h Hn Hok) as (h' & E & Hok' & El & Nf & Eo & Ec). rewrite E. cbn [bind]. exists h', (hnext h). split; [reflexivity|]. repeat (split; [assumption|]).
  intro a. rewrite Ec. destruct (Z.leb_spec 0 a), (Z.ltb_spec a n); cbn; split; try easy; lia.
Qed.
(* the elements of a tensor with the layout of x and a copy of the cells of x *)
Lemma copied_gel (d : V) (h h' : heapV) x t b dims n : laid h x dims -> garr t = Some b -> gstr t = gstr x -> gmemsize x <= n ->
  (forall a, 0 <= a < n -> hmem h' b a = Some (cellv d h x a)) -> forall ix, in_range ix dims -> gel h' t ix = gel h x ix.
Proof.
  intros HL Hb Hs Hn Hc ix Hr. destruct (laid_rd h x dims ix HL Hr) as (bx & v & Hbx & Hv & _ & Hm). destruct (laid_len h x dims ix HL Hr) as (L & _). pose proof HL as (_ & _ & _ & _ & _ & _ & Hi). specialize (Hi ix Hr).
  rewrite Hv. rewrite (gel_eq h' t b ix Hb) by (now rewrite Hs). rewrite Hs, Hc by lia. f_equal. unfold cellv. now rewrite Hbx, Hm.
Qed.
Lemma copied_laid (h h' : heapV) x t dims : laid h x dims -> gdims t = gdims x -> gk t = gk x -> gstr t = gstr x -> gmemsize t = gmemsize x -> has_cells h' t (gmemsize t) -> laid h' t dims.
Proof.
  intros HL Ed Ek Es Em Hc. pose proof HL as (Hd & Hk & Hls & Hn & (bx & Hbx & _) & Hdis & Hin). pose proof Hc as (b & Hb & _). split; [congruence|split; [congruence|split; [now rewrite Es|split; [exact Hn|split; [exact Hc|split]]]]].
  - intros ix jx Hi Hj E. cbn [vdims gview] in Hi, Hj. rewrite Ed, Hd in Hi, Hj. apply Hdis; [cbn; now rewrite Hd|cbn; now rewrite Hd|].
    rewrite !(vaddr_g t b) in E by (rewrite ?Es, ?Hls; try assumption; now apply in_range_length). rewrite !(vaddr_g x bx) by (rewrite ?Hls; try assumption; now apply in_range_length). rewrite Es in E. congruence.
  - intros ix Hr. rewrite Es, Em. now apply Hin.
Qed.
Lemma copy_ok (junk : V) (h : heapV) x dims : heap_ok h -> laid h x dims -> 0 <= gasize x -> gasize x = gmemsize x ->
  exists t h', gcopy junk x h = Ok (t, h') /\ laid h' t dims /\ gasize t = gasize x /\ gmemsize t = gmemsize x /\ gstr t = gstr x /\ adds_array h t h' /\ forall ix, in_range ix dims -> gel h' t ix = gel h x ix.
Proof.
  intros Hok HL Ha Eam. pose proof HL as (Hd & Hk & Hls & Hn & Hc & _ & _). unfold gcopy.
  destruct (new_str_ok junk (gk x) (gdims x) (gstr x) (gasize x) h Ha Hok) as (h1 & b & E & Hok1 & Nf & El & Eo & Ec). rewrite E. cbn [bind gk gak gdims gstr gasize garr].
  remember (GT (gk x) (gak x) (gdims x) (gstr x) (gasize x) (gmemsize x) (Some b) false) as t eqn:Et.
  assert (Hb : garr t = Some b) by (now subst t). assert (Hct : has_cells h1 t (gmemsize x)). { exists b. split; [exact Hb|split; [rewrite El; now left|]]. intro a. rewrite <- Eam. apply Ec. }
  assert (HA : adds_array h t h1) by (exists b; repeat (split; [first [assumption|now subst t]|]); assumption).
  assert (Nx : garr x <> Some b) by (now apply (adds_apart h t h1 x (gmemsize x))).
  unfold copy_arr. destruct (loop_ok h1 t b 0 (gmemsize x) (gmemsize x) (cellv junk h x) (fun i h' => rd h' x (0 + i))) as (h2 & E2 & P2); try assumption; try lia.
  { intros i h' Hir P'. rewrite (rd_other b 0 i _ h1 h' x _ P') by (now left). change (0 + i) with i. rewrite (rd_cellv junk h1 x (gmemsize x)) by (try assumption; now apply (adds_has h t h1)). f_equal. now apply (cellv_adds junk h t h1 x (gmemsize x)). }
  rewrite E2. cbn [bind]. exists t, h2. split; [reflexivity|]. pose proof (cells_in h1 t b 0 (gmemsize x) (gmemsize x) Hct Hb ltac:(lia) ltac:(lia)) as Hci.
  split; [|split; [now subst t|split; [now subst t|split; [now subst t|split; [exact (paint_adds h t h1 h2 b _ _ HA Hb P2 Hci)|]]]]].
  - apply (copied_laid h h2 x t dims HL); try (now subst t). replace (gmemsize t) with (gmemsize x) by (now subst t). apply (painted_has b 0 _ _ h1 h2 t _ P2); assumption.
  - apply (copied_gel junk h h2 x t b dims (gmemsize x) HL Hb); try (now subst t); try lia. intros a Hr. now apply (painted_in0 b (gmemsize x) _ h1 h2).
Qed.
(* a loop that meets an undefined step *)
Lemma paint_ub b o (g : Z -> V) h n m (f : Z -> heap V -> res (heap V)) : 0 <= m < n ->
  (forall i h', 0 <= i < m -> painted b o i g h h' -> exists h'', f i h' = Ok h'' /\ painted b o (i + 1) g h h'') ->
  (forall h', painted b o m g h h' -> f m h' = UB) -> forZ n f h = UB.
Proof.
  intros Hm Hs Hu. destruct (paint b o g h m f ltac:(lia) Hs) as (h' & E & P). unfold forZ in *. replace n with (m + (n - m)) by lia. rewrite zrange_app by lia. rewrite foldM_app, E. cbn [bind].
  rewrite zrange_cons by lia. cbn [map foldM]. rewrite Z.add_0_r, (Hu h' P). reflexivity.
Qed.
(* the copy of a padded tensor: an array of asize cells is allocated and memsize cells are written *)
Lemma copy_padded_ub (junk : V) (h : heapV) x dims : heap_ok h -> laid h x dims -> 0 <= gasize x < gmemsize x -> gcopy junk x h = UB.
Proof.
  intros Hok HL Ha. pose proof HL as (Hd & Hk & Hls & Hn & Hc & _ & _). unfold gcopy.
  destruct (new_str_ok junk (gk x) (gdims x) (gstr x) (gasize x) h ltac:(lia) Hok) as (h1 & b & E & Hok1 & Nf & El & Eo & Ec). rewrite E. cbn [bind gk gak gdims gstr gasize garr].
  remember (GT (gk x) (gak x) (gdims x) (gstr x) (gasize x) (gmemsize x) (Some b) false) as t eqn:Et.
  assert (Hb : garr t = Some b) by (now subst t). assert (HA : adds_array h t h1) by (exists b; repeat (split; [first [assumption|now subst t]|]); assumption).
  assert (Nx : garr x <> Some b) by (now apply (adds_apart h t h1 x (gmemsize x))).
  assert (Hrd : forall i h', painted b 0 i (cellv junk h x) h1 h' -> 0 <= i < gmemsize x -> rd h' x (0 + i) = Ok (cellv junk h x i)).
  { intros i h' P' Hir. rewrite (rd_other b 0 i _ h1 h' x _ P') by (now left). change (0 + i) with i. rewrite (rd_cellv junk h1 x (gmemsize x)) by (try assumption; now apply (adds_has h t h1)). f_equal. now apply (cellv_adds junk h t h1 x (gmemsize x)). }
  unfold copy_arr. rewrite (paint_ub b 0 (cellv junk h x) h1 (gmemsize x) (gasize x)); [reflexivity|lia| |].
  - intros i h' Hir P'. rewrite (Hrd i h' P') by lia. cbn [bind]. apply wr_painted; [lia|exact P'|exact Hb|apply Ec; lia|reflexivity].
  - intros h' P'. rewrite (Hrd _ h' P') by lia. cbn [bind]. unfold wr, store. rewrite Hb, (painted_out b 0 (gasize x) _ h1 h' _ P') by lia. destruct (hmem h1 b (0 + gasize x)) eqn:Ex; [|reflexivity]. exfalso.
    assert (hmem h1 b (0 + gasize x) <> None) by congruence. apply Ec in H. lia.
Qed.
Lemma convert_ok (junk : V) f (h : heapV) x dims : heap_ok h -> plain h x dims -> exists t h', gconvert junk f x h = Ok (t, h') /\ plain h' t dims /\ adds_array h t h' /\ forall ix, in_range ix dims -> gel h' t ix = opt1 f (gel h x ix).
Proof.
  intros Hok HX. pose proof HX as (Hd & Hn & Hgd & Hk & Hs & Ha & Hm & Hc). unfold gconvert. pose proof (prod_nonneg _ Hn) as Hp.
  destruct (new_str_ok junk (gk x) (gdims x) (gstr x) (gasize x) h ltac:(lia) Hok) as (h1 & b & E & Hok1 & Nf & El & Eo & Ec). rewrite E. cbn [bind gasize].
  remember (GT (gk x) 0 (gdims x) (gstr x) (gasize x) (gasize x) (Some b) false) as t eqn:Et. rewrite Ha.
  assert (Hb : garr t = Some b) by (now subst t). assert (HA : adds_array h t h1) by (exists b; repeat (split; [first [assumption|now subst t]|]); assumption).
  assert (HP : plain h1 t dims). { subst t. repeat (split; [assumption|]). exists b. split; [reflexivity|split; [rewrite El; now left|]]. intro a. rewrite <- Ha. apply Ec. }
  pose proof HP as (_ & _ & _ & _ & _ & _ & _ & Hct). pose proof (cells_in h1 t b 0 (prod dims) (prod dims) Hct Hb ltac:(lia) ltac:(lia)) as Hci.
  assert (Nx : garr x <> Some b) by (now apply (adds_apart h t h1 x (prod dims))).
  destruct (paint b 0 (fun i => f (cellv junk h x i)) h1 (prod dims) (fun i h0 => do v <- rd h0 x i; wr t i (f v) h0) Hp) as (h2 & E2 & P2).
  { intros i h' Hir P'. rewrite (rd_other b 0 i _ h1 h' x _ P') by (now left). rewrite (rd_cellv junk h1 x (prod dims)) by (try assumption; now apply (adds_has h t h1)). cbn [bind].
    apply wr_painted0; [lia|exact P'|exact Hb|exact (Hci i Hir)|]. now rewrite (cellv_adds junk h t h1 x (prod dims)). }
  rewrite E2. cbn [bind]. exists t, h2. split; [reflexivity|]. pose proof (painted_plain _ _ _ _ _ _ _ _ P2 Hci HP) as HP2. split; [exact HP2|split; [exact (paint_adds h t h1 h2 b _ _ HA Hb P2 Hci)|]].
  intros ix Hr. rewrite (painted_gel h1 h2 b _ t dims ix P2 HP2 Hb Hr), (plain_cellv junk h x dims ix HX Hr). reflexivity.
Qed.
(* a tensor converted from a padded one keeps its strides but has only asize cells *)
Lemma convert_padded (junk : V) f (h : heapV) x dims : heap_ok h -> laid h x dims -> 0 <= gasize x <= gmemsize x -> exists t h', gconvert junk f x h = Ok (t, h') /\
  forall ix, in_range ix dims -> gasize x <= dot (gstr x) ix -> gel h' t ix = None /\ gget t ix h' = UB.
Proof.
  intros Hok HL Ha. pose proof HL as (Hd & Hk & Hls & Hn & Hc & _ & _). unfold gconvert.
  destruct (new_str_ok junk (gk x) (gdims x) (gstr x) (gasize x) h ltac:(lia) Hok) as (h1 & b & E & Hok1 & Nf & El & Eo & Ec). rewrite E. cbn [bind gasize].
  remember (GT (gk x) 0 (gdims x) (gstr x) (gasize x) (gasize x) (Some b) false) as t eqn:Et.
  assert (Hb : garr t = Some b) by (now subst t). assert (HA : adds_array h t h1) by (exists b; repeat (split; [first [assumption|now subst t]|]); assumption).
  assert (Nx : garr x <> Some b) by (now apply (adds_apart h t h1 x (gmemsize x))).
  assert (Hci : forall i, 0 <= i < gasize x -> hmem h1 b (0 + i) <> None) by (intros i Hi; apply Ec; lia).
  destruct (paint b 0 (fun i => f (cellv junk h x i)) h1 (gasize x) (fun i h0 => do v <- rd h0 x i; wr t i (f v) h0) ltac:(lia)) as (h2 & E2 & P2).
  { intros i h' Hir P'. rewrite (rd_other b 0 i _ h1 h' x _ P') by (now left). rewrite (rd_cellv junk h1 x (gmemsize x)) by (try lia; now apply (adds_has h t h1)). cbn [bind].
    apply wr_painted0; [lia|exact P'|exact Hb|exact (Hci i Hir)|]. now rewrite (cellv_adds junk h t h1 x (gmemsize x)). }
  rewrite E2. cbn [bind]. exists t, h2. split; [reflexivity|]. intros ix Hr Hge. destruct (laid_len h x dims ix HL Hr) as (L & K). assert (Es : gstr t = gstr x) by (now subst t). assert (Ek : gk t = gk x) by (now subst t).
  assert (Q : hmem h2 b (dot (gstr x) ix) = None).
  { rewrite (painted_out b 0 (gasize x) _ h1 h2 _ P2) by lia. destruct (hmem h1 b (dot (gstr x) ix)) eqn:Ex; [|reflexivity]. exfalso. assert (hmem h1 b (dot (gstr x) ix) <> None) by congruence. apply Ec in H. lia. }
  split; [rewrite (gel_eq h2 t b ix Hb) by (now rewrite Es); now rewrite Es|]. unfold gget. rewrite goff_ok by (rewrite ?Ek, ?Es; auto; lia). cbn [bind]. rewrite Es. unfold rd, load. now rewrite Hb, Q.
Qed.
End Copies.

Section Products.
Context {R : cring}.
Notation heapR := (heap (car R)).
(* t[i*J+j] += S i j over a row-major array *)
Lemma acc_loop (h : heapR) t b I J N (S : Z -> Z -> R) (F : Z -> Z -> heapR -> res R) (A : Z -> Z -> Z) : 0 <= I -> 0 <= J -> I * J <= N -> has_cells h t N -> garr t = Some b ->
  (forall i j, 0 <= i < I -> 0 <= j < J -> A i j = i * J + j) ->
  (forall h' k g i j, painted b 0 k g h h' -> 0 <= i < I -> 0 <= j < J -> F i j h' = Ok (S i j)) ->
  exists h', forZ I (fun i => forZ J (fun j h => do s <- F i j h; do v <- rd h t (A i j); wr t (A i j) (cadd v s) h)) h = Ok h' /\
    painted b 0 (I * J) (fun a => cadd (cellv c0 h t a) (S (a / J) (a mod J))) h h'.
Proof.
  intros HI HJ HN Hc Hb HA HF. apply (paint2 b _ h I J (fun i j h => do s <- F i j h; do v <- rd h t (A i j); wr t (A i j) (cadd v s) h) HI HJ).
  intros i j h' Hi Hj P'. rewrite (HF h' _ _ i j P' Hi Hj). cbn [bind]. rewrite HA by assumption. rewrite (rd_other b 0 (i * J + j) _ h h' t _ P') by (right; lia).
  rewrite (rd_cellv c0 h t N) by (try assumption; nia). cbn [bind]. apply wr_painted0; [nia|exact P'|exact Hb|apply (cells_in h t b 0 N N Hc Hb ltac:(lia) ltac:(lia) (i * J + j)); nia|].
  rewrite (Z.add_comm (i * J) j), Z.div_add, Z.div_small, Z.mod_add, Z.mod_small by lia. reflexivity.
Qed.
Lemma rd_keep b k (g : Z -> R) (h h' : heapR) x N a : painted b 0 k g h h' -> garr x <> Some b -> has_cells h x N -> 0 <= a < N -> rd h' x a = Ok (cellv c0 h x a).
Proof. intros P Nx Hc Ha. rewrite (rd_other b 0 k g h h' x a P) by (now left). now apply (rd_cellv c0 h x N). Qed.
Lemma zget_last {A} (l : list A) a : zget (l ++ [a]) (Z.of_nat (length l)) = Ok a.
Proof. unfold zget, vget. destruct (Z.ltb_spec (Z.of_nat (length l)) 0); [lia|]. rewrite Nat2Z.id, nth_error_app2, Nat.sub_diag by lia. reflexivity. Qed.
Lemma zget_app1 {A} (l l' : list A) i : 0 <= i < Z.of_nat (length l) -> zget (l ++ l') i = zget l i.
Proof. intro H. unfold zget, vget. destruct (Z.ltb_spec i 0); [lia|]. now rewrite nth_error_app1 by lia. Qed.
Lemma stride_last s dx : dx <> [] -> zget (strides_of s dx) (Z.of_nat (length dx) - 1) = Ok s.
Proof.
  intro Hd. destruct (exists_last Hd) as (l & d & ->). destruct (strides_of_app s l [d]) as (sa & E & L & _). rewrite E, app_length. cbn [length]. change (strides_of s [d]) with [s]. replace (Z.of_nat (length l + 1) - 1) with (Z.of_nat (length sa)) by lia. apply zget_last.
Qed.
Lemma stride_at dx r : dx <> [] -> zget (strides_of 1 (dx ++ r)) (Z.of_nat (length dx) - 1) = Ok (prod r).
Proof.
  intro Hd. destruct (strides_of_app 1 dx r) as (sa & E & L & Ea). assert (length dx <> 0%nat) by (now destruct dx). rewrite E, zget_app1 by lia. rewrite Ea, Z.mul_1_l. now apply stride_last.
Qed.
Lemma row_col ix dx jx dy : in_range ix dx -> in_range jx dy -> flat (ix ++ jx) (dx ++ dy) / prod dy = flat ix dx /\ flat (ix ++ jx) (dx ++ dy) mod prod dy = flat jx dy.
Proof.
  intros Hi Hj. pose proof (flat_range jx dy Hj). rewrite flat_app by (now apply in_range_length). rewrite Z.add_comm, Z.div_add, Z.div_small, Z.mod_add, Z.mod_small by lia. auto.
Qed.
Lemma in_range_one p K : 0 <= p < K -> in_range [p] [K]. Proof. intro. now repeat constructor. Qed.
Lemma flat_snoc ix dx p K : in_range ix dx -> flat (ix ++ [p]) (dx ++ [K]) = flat ix dx * K + p.
Proof. intro Hi. rewrite flat_app by (now apply in_range_length). cbn [flat]. rewrite prod_one. change (prod []) with 1. lia. Qed.

(* the sizes read by the products *)
Lemma mm_front {A} (t x y : gtensor) (h : heapR) dx dy K (body : Z -> Z -> Z -> Z -> Z -> Z -> res A) : dx <> [] -> 0 < K -> plain h x (dx ++ [K]) -> plain h y (K :: dy) -> plain h t (dx ++ dy) ->
  assrt (gk t =? gk x + gk y - 2)
    (do K <- zget (gdims x) (gk x - 1); do I <- cdiv (gasize x) K; do y0 <- zget (gdims y) 0; do J <- cdiv (gasize y) y0;
     assrt (y0 =? K) (assrt (gasize t =? I * J) (do sx <- zget (gstr x) (gk x - 2); do st <- zget (gstr t) (gk x - 2); do sy <- zget (gstr y) 0; body K I J sx st sy)))
  = body K (prod dx) (prod dy) K (prod dy) (prod dy).
Proof.
  intros Hdx HK (_ & Hnx & Hdx' & Hkx & Hsx & Hax & _) (_ & _ & Hdy & Hky & Hsy & Hay & _) (_ & _ & Hdt & Hkt & Hst & Hat & _).
  rewrite Hkt, Hkx, Hky, !app_length. cbn [length]. replace (Z.of_nat (length dx + length dy) =? _) with true by lia. cbn [assrt]. replace (Z.of_nat (length dx + 1) - 1) with (Z.of_nat (length dx)) by lia.
  rewrite Hdx', zget_last. cbn [bind]. rewrite Hax, prod_app, prod_one. unfold cdiv. destruct (Z.eqb_spec K 0); [lia|]. rewrite Z.quot_mul by lia. cbn [bind]. rewrite Hdy. change (zget (K :: dy) 0) with (Ok K). cbn [bind].
  destruct (Z.eqb_spec K 0); [lia|]. rewrite Hay, prod_cons, (Z.mul_comm K), Z.quot_mul by lia. cbn [bind]. rewrite Z.eqb_refl. cbn [assrt]. rewrite Hat, prod_app, Z.eqb_refl. cbn [assrt].
  replace (Z.of_nat (length dx + 1) - 2) with (Z.of_nat (length dx) - 1) by lia. rewrite Hsx, stride_at by assumption. rewrite prod_one. cbn [bind]. rewrite Hst, stride_at by assumption. cbn [bind].
  rewrite Hsy. rewrite strides_of_cons. rewrite Z.mul_1_l. reflexivity.
Qed.
Lemma add_matmul_ok (h : heapR) t x y dx dy K : dx <> [] -> 0 < K -> plain h x (dx ++ [K]) -> plain h y (K :: dy) -> plain h t (dx ++ dy) -> apart t x -> apart t y ->
  exists h', gadd_matmul t x y h = Ok h' /\ only_at h h' t (fun ix => in_range ix (dx ++ dy)) /\
    forall ix jx, in_range ix dx -> in_range jx dy -> gel h' t (ix ++ jx) = Some (cadd (gel0 h t (ix ++ jx)) (rsum (map (fun p => cmul (gel0 h x (ix ++ [p])) (gel0 h y (p :: jx))) (zrange K)))).
Proof.
  intros Hd HK HX HY HT Atx Aty. unfold gadd_matmul. rewrite (mm_front t x y h dx dy K _ Hd HK HX HY HT).
  pose proof HX as (_ & Hnx & _ & _ & _ & _ & _ & Hcx). pose proof HY as (_ & Hny & _ & _ & _ & _ & _ & Hcy). pose proof HT as (_ & Hnt & _ & _ & _ & _ & _ & Hct). pose proof Hct as (b & Hb & _).
  apply Forall_app in Hnt. destruct Hnt as (Hn1 & Hn2). pose proof (prod_nonneg _ Hn1). pose proof (prod_nonneg _ Hn2). unfold apart in *.
  destruct (acc_loop h t b (prod dx) (prod dy) (prod (dx ++ dy)) (fun i j => rsum (map (fun p => cmul (cellv c0 h x (i * K + p)) (cellv c0 h y (p * prod dy + j))) (zrange K)))
     (fun i j h => gdotp K (fun p => gprod2 (rd h x (i * K + p)) (rd h y (p * prod dy + j)))) (fun i j => prod dy * i + j)) as (h2 & E2 & P2); try assumption.
  { rewrite prod_app. lia. } { intros. lia. }
  { intros h' k g i j P' Hi Hj. apply sum_range. intros p Hp. rewrite (rd_keep b k g h h' x (prod (dx ++ [K]))), (rd_keep b k g h h' y (prod (K :: dy))); try assumption; try congruence; try reflexivity.
    - rewrite prod_cons. nia. - rewrite prod_app, prod_one. nia. }
  exists h2. split; [exact E2|]. rewrite <- prod_app in P2. pose proof (cells_in h t b 0 (prod (dx ++ dy)) (prod (dx ++ dy)) Hct Hb ltac:(lia) ltac:(lia)) as Hci. pose proof (painted_plain _ _ _ _ _ _ _ _ P2 Hci HT) as HP2.
  split; [exact (painted_only h h2 b _ t _ P2 HT Hb)|]. intros ix jx Hi Hj. assert (Hr : in_range (ix ++ jx) (dx ++ dy)) by (now apply Forall2_app). rewrite (painted_gel h h2 b _ t _ _ P2 HP2 Hb Hr). destruct (row_col ix dx jx dy Hi Hj) as (-> & ->).
  rewrite (gel0_cellv h t _ _ HT Hr). do 2 f_equal. f_equal. apply map_ext_in. intros p Hp. apply in_zrange in Hp.
  rewrite (gel0_cellv h x (dx ++ [K])), (gel0_cellv h y (K :: dy)); try assumption; [|now constructor|apply Forall2_app; [assumption|now apply in_range_one]]. now rewrite flat_snoc by assumption.
Qed.
Lemma add_matmul_AH_ok conj (h : heapR) g x y dx dy K : dx <> [] -> 0 < K -> plain h x (dx ++ [K]) -> plain h y (K :: dy) -> plain h g (dx ++ dy) -> apart x g -> apart x y ->
  exists h', gadd_matmul_AH conj x g y h = Ok h' /\ only_at h h' x (fun ix => in_range ix (dx ++ [K])) /\
    forall ix p, in_range ix dx -> 0 <= p < K -> gel h' x (ix ++ [p]) = Some (cadd (gel0 h x (ix ++ [p])) (rsum (map (fun jx => cmul (gel0 h g (ix ++ jx)) (conj (gel0 h y (p :: jx)))) (all_indices dy)))).
Proof.
  intros Hd HK HX HY HT Atx Aty. unfold gadd_matmul_AH. rewrite (mm_front g x y h dx dy K _ Hd HK HX HY HT).
  pose proof HX as (_ & Hnx & _ & _ & _ & _ & _ & Hcx). pose proof HY as (_ & Hny & _ & _ & _ & _ & _ & Hcy). pose proof HT as (_ & Hnt & _ & _ & _ & _ & _ & Hct). pose proof Hcx as (b & Hb & _).
  apply Forall_app in Hnt. destruct Hnt as (Hn1 & Hn2). pose proof (prod_nonneg _ Hn1). pose proof (prod_nonneg _ Hn2). unfold apart in *.
  destruct (acc_loop h x b (prod dx) K (prod (dx ++ [K])) (fun i p => rsum (map (fun j => cmul (cellv c0 h g (prod dy * i + j)) (conj (cellv c0 h y (p * prod dy + j)))) (zrange (prod dy))))
     (fun i p h => gdotp (prod dy) (fun j => gprod2 (rd h g (prod dy * i + j)) (rmap conj (rd h y (p * prod dy + j))))) (fun i p => K * i + p)) as (h2 & E2 & P2); try assumption; try lia.
  { rewrite prod_app, prod_one. lia. }
  { intros h' k g' i p P' Hi Hp. apply sum_range. intros j Hj. rewrite (rd_keep b k g' h h' g (prod (dx ++ dy))), (rd_keep b k g' h h' y (prod (K :: dy))); try assumption; try congruence; try reflexivity.
    - rewrite prod_cons. nia. - rewrite prod_app. nia. }
  exists h2. split; [exact E2|]. assert (Ep : prod dx * K = prod (dx ++ [K])) by (rewrite prod_app, prod_one; lia). rewrite Ep in P2. pose proof (cells_in h x b 0 (prod (dx ++ [K])) (prod (dx ++ [K])) Hcx Hb ltac:(lia) ltac:(lia)) as Hci. pose proof (painted_plain _ _ _ _ _ _ _ _ P2 Hci HX) as HP2.
  split; [exact (painted_only h h2 b _ x _ P2 HX Hb)|]. intros ix p Hi Hp. assert (Hr : in_range (ix ++ [p]) (dx ++ [K])) by (apply Forall2_app; [assumption|now apply in_range_one]). rewrite (painted_gel h h2 b _ x _ _ P2 HP2 Hb Hr).
  destruct (row_col ix dx [p] [K] Hi (in_range_one p K Hp)) as (E3 & E4). rewrite prod_one in E3, E4. rewrite E3, E4. replace (flat [p] [K]) with p by (cbn [flat]; change (prod []) with 1; lia).
  rewrite (gel0_cellv h x _ _ HX Hr). do 2 f_equal. rewrite <- (flat_all_indices dy Hn2), map_map. f_equal. apply map_ext_in. intros jx Hj. apply in_all_indices in Hj.
  rewrite (gel0_cellv h g (dx ++ dy)), (gel0_cellv h y (K :: dy)); try assumption; [|now constructor|now apply Forall2_app]. rewrite flat_app by (now apply in_range_length). cbn [flat]. now rewrite (Z.mul_comm (flat ix dx)).
Qed.
Lemma add_matmul_HA_ok conj (h : heapR) g x y dx dy K : dx <> [] -> 0 < K -> plain h x (dx ++ [K]) -> plain h y (K :: dy) -> plain h g (dx ++ dy) -> apart y g -> apart y x ->
  exists h', gadd_matmul_HA conj y x g h = Ok h' /\ only_at h h' y (fun ix => in_range ix (K :: dy)) /\
    forall p jx, 0 <= p < K -> in_range jx dy -> gel h' y (p :: jx) = Some (cadd (gel0 h y (p :: jx)) (rsum (map (fun ix => cmul (conj (gel0 h x (ix ++ [p]))) (gel0 h g (ix ++ jx))) (all_indices dx)))).
Proof.
  intros Hd HK HX HY HT Atx Aty. unfold gadd_matmul_HA. rewrite (mm_front g x y h dx dy K _ Hd HK HX HY HT).
  pose proof HX as (_ & Hnx & _ & _ & _ & _ & _ & Hcx). pose proof HY as (_ & Hny & _ & _ & _ & _ & _ & Hcy). pose proof HT as (_ & Hnt & _ & _ & _ & _ & _ & Hct). pose proof Hcy as (b & Hb & _).
  apply Forall_app in Hnt. destruct Hnt as (Hn1 & Hn2). pose proof (prod_nonneg _ Hn1). pose proof (prod_nonneg _ Hn2). unfold apart in *.
  destruct (acc_loop h y b K (prod dy) (prod (K :: dy)) (fun p j => rsum (map (fun i => cmul (conj (cellv c0 h x (i * K + p))) (cellv c0 h g (prod dy * i + j))) (zrange (prod dx))))
     (fun p j h => gdotp (prod dx) (fun i => gprod2 (rmap conj (rd h x (i * K + p))) (rd h g (prod dy * i + j)))) (fun p j => p * prod dy + j)) as (h2 & E2 & P2); try assumption; try lia.
  { rewrite prod_cons. lia. }
  { intros h' k g' p j P' Hp Hj. apply sum_range. intros i Hi. rewrite (rd_keep b k g' h h' g (prod (dx ++ dy))), (rd_keep b k g' h h' x (prod (dx ++ [K]))); try assumption; try congruence; try reflexivity.
    - rewrite prod_app, prod_one. nia. - rewrite prod_app. nia. }
  exists h2. split; [exact E2|]. rewrite <- prod_cons in P2. pose proof (cells_in h y b 0 (prod (K :: dy)) (prod (K :: dy)) Hcy Hb ltac:(lia) ltac:(lia)) as Hci. pose proof (painted_plain _ _ _ _ _ _ _ _ P2 Hci HY) as HP2.
  split; [exact (painted_only h h2 b _ y _ P2 HY Hb)|]. intros p jx Hp Hj. assert (Hr : in_range (p :: jx) (K :: dy)) by (now constructor). rewrite (painted_gel h h2 b _ y _ _ P2 HP2 Hb Hr).
  destruct (row_col [p] [K] jx dy (in_range_one p K Hp) Hj) as (E3 & E4). cbn [app] in E3, E4. rewrite E3, E4. replace (flat [p] [K]) with p by (cbn [flat]; change (prod []) with 1; lia).
  rewrite (gel0_cellv h y _ _ HY Hr). do 2 f_equal. rewrite <- (flat_all_indices dx Hn1), map_map. f_equal. apply map_ext_in. intros ix Hi. apply in_all_indices in Hi.
  rewrite (gel0_cellv h g (dx ++ dy)), (gel0_cellv h x (dx ++ [K])); try assumption; [|apply Forall2_app; [assumption|now apply in_range_one]|now apply Forall2_app]. rewrite flat_snoc by assumption. rewrite flat_app by (now apply in_range_length). now rewrite (Z.mul_comm (flat ix dx) (prod dy)).
Qed.
(* a product with a vector on the left reads strides[-1] *)
Lemma add_matmul_vec_ub (h : heapR) t x y K dy : 0 < K -> plain h x [K] -> plain h y (K :: dy) -> plain h t dy -> gadd_matmul t x y h = UB.
Proof.
  intros HK (_ & Hnx & Hdx' & Hkx & Hsx & Hax & _) (_ & _ & Hdy & Hky & Hsy & Hay & _) (_ & _ & Hdt & Hkt & Hst & Hat & _). unfold gadd_matmul.
  rewrite Hkt, Hkx, Hky. cbn [length]. replace (Z.of_nat (length dy) =? _) with true by lia. cbn [assrt]. rewrite Hdx'. change (zget [K] (Z.of_nat 1 - 1)) with (Ok K). cbn [bind]. rewrite Hax, prod_one. unfold cdiv.
  destruct (Z.eqb_spec K 0); [lia|]. rewrite Z.quot_same by lia. cbn [bind]. rewrite Hdy. change (zget (K :: dy) 0) with (Ok K). cbn [bind]. destruct (Z.eqb_spec K 0); [lia|]. rewrite Hay, prod_cons, (Z.mul_comm K), Z.quot_mul by lia. cbn [bind].
  rewrite Z.eqb_refl. cbn [assrt]. rewrite Hat, Z.mul_1_l, Z.eqb_refl. reflexivity.
Qed.
Lemma add_matmul_zero_ub (h : heapR) t x y dx dy : plain h x (dx ++ [0]) -> plain h y (0 :: dy) -> plain h t (dx ++ dy) -> gadd_matmul t x y h = UB.
Proof.
  intros (_ & Hnx & Hdx' & Hkx & Hsx & Hax & _) (_ & _ & Hdy & Hky & Hsy & Hay & _) (_ & _ & Hdt & Hkt & Hst & Hat & _). unfold gadd_matmul.
  rewrite Hkt, Hkx, Hky, !app_length. cbn [length]. replace (Z.of_nat (length dx + length dy) =? _) with true by lia. cbn [assrt]. replace (Z.of_nat (length dx + 1) - 1) with (Z.of_nat (length dx)) by lia.
  rewrite Hdx', zget_last. reflexivity.
Qed.
End Products.
