(* Proofs_Convolve3.v -- gradients of one-dimensional convolution, and the function that allocates its result. *)
From Verif Require Import Base BaseFacts Model_Index Model_View Model_Tensor Model_Einsum Model_Convolve Spec_Index Spec_View Spec_Tensor Spec_Convolve
  Proofs_Index Proofs_View Proofs_View2 Proofs_Tensor Proofs_Tensor2 Proofs_Tensor3 Proofs_Einsum6 Proofs_Einsum7 Proofs_Convolve Proofs_Convolve2.
Local Open Scope Z_scope.

(* when the two paddings add up *)
Lemma centred_sum N X W : 0 < W -> Z.Even (N - X + W - 1) \/ X + W - 1 < N \/ N + W - 1 < X -> W - 1 - centred X N W = centred N X W.
Proof.
  intros HW H. unfold centred. destruct H as [[k Hk]|H]; [|Z.to_euclidean_division_equations; lia].
  assert (Z.quot (N - X + W - 1) 2 = k) by (rewrite Hk, Z.mul_comm; apply Z.quot_mul; lia).
  assert (Z.quot (X - N + W - 1) 2 = W - 1 - k) by (replace (X - N + W - 1) with ((W - 1 - k) * 2) by lia; apply Z.quot_mul; lia). lia.
Qed.
(* otherwise they miss by one *)
Lemma centred_short N X W : Z.Odd (N - X + W - 1) -> N <= X + W - 1 -> X <= N + W - 1 -> W - 1 - centred X N W = centred N X W + 1.
Proof.
  intros [k Hk] H1 H2. unfold centred. Z.to_euclidean_division_equations. lia.
Qed.
Lemma centred_comm N X W : centred W X N = centred N X W.
Proof. unfold centred. f_equal. lia. Qed.

(* ---- views showing the elements of another view *)
Lemma sub_distinct v w (f : list Z -> list Z) : (forall ix, in_range ix (vdims v) -> in_range (f ix) (vdims w) /\ vaddr v ix = vaddr w (f ix)) ->
  (forall ix jx, in_range ix (vdims v) -> in_range jx (vdims v) -> f ix = f jx -> ix = jx) -> distinct_cells w -> distinct_cells v.
Proof. intros H Hf D ix jx Hi Hj E. destruct (H ix Hi) as [H1 H2], (H jx Hj) as [H3 H4]. apply Hf; try assumption. apply D; congruence. Qed.
Lemma sub_readable {V} (m : mem V) v w (f : list Z -> list Z) : (forall ix, in_range ix (vdims v) -> in_range (f ix) (vdims w) /\ vaddr v ix = vaddr w (f ix)) -> readable m w -> readable m v.
Proof. intros H Rw ix Hi. destruct (H ix Hi) as [H1 H2]. unfold elem. rewrite H2. now apply Rw. Qed.
Lemma sub_disjoint r v w (f : list Z -> list Z) : (forall ix, in_range ix (vdims v) -> in_range (f ix) (vdims w) /\ vaddr v ix = vaddr w (f ix)) -> disjoint_views r w -> disjoint_views r v.
Proof. intros H D ix jx Hi Hj. destruct (H jx Hj) as [H1 H2]. rewrite H2. now apply D. Qed.

Section S.
Context {R : cring}.
Add Ring RrCv3 : (cth R).
Notation memR := (mem (car R)).

Lemma back0_1_ok r x w N X W (m : memR) : vwf r -> vwf x -> vwf w -> vdims r = [N] -> vdims x = [X] -> vdims w = [W] -> distinct_cells x ->
  readable m r -> readable m x -> readable m w -> disjoint_views x r -> disjoint_views x w ->
  exists m', conv_back0 r x w m = Ok m' /\ (forall i, 0 <= i < X -> elem m' x [i] = Some (corr_dx N W (W - 1 - centred X N W) (fun p => elem0 m r [p]) (fun j => elem0 m w [j]) i)) /\ untouched m m' x.
Proof.
  intros Wr Wx Ww Er Ex Ew Dx Rr Rx Rw Dr Dw. unfold conv_back0, ndims. rewrite Ew. cbn [length Z.of_nat Z.eqb Pos.eqb Pos.of_succ_nat].
  rewrite (gdim_at w 0 W) by (rewrite ?Ew; cbn; lia || reflexivity). destruct w as [bw ow dw sw]. pose proof Ww as [Lw Nw]. cbn [vdims vstr vblk voff] in *. subst dw. destruct sw as [|s0 [|]]; try discriminate.
  change (zget [s0] 0) with (Ok s0). cbn [bind]. set (w := View bw ow [W] [s0]) in *. set (w' := View bw (ow + (W - 1) * s0) [W] [- s0]).
  assert (F : forall ix, in_range ix (vdims w') -> in_range [W - 1 - nth 0 ix 0] (vdims w) /\ vaddr w' ix = vaddr w [W - 1 - nth 0 ix 0]).
  { intros ix Hix. apply in_range_1_inv in Hix as (j & -> & Hj). cbn [nth]. split; [repeat constructor; cbn; lia|]. rewrite !vaddr_ok by reflexivity. cbn. do 2 f_equal. lia. }
  destruct (conv1_ok x r w' X N W m) as (m' & E & V & U); try assumption; try reflexivity.
  - now apply (sub_readable m w' w (fun ix => [W - 1 - nth 0 ix 0])).
  - now apply (sub_disjoint x w' w (fun ix => [W - 1 - nth 0 ix 0])).
  - exists m'. split; [exact E|]. split; [|exact U]. intros i Hi. rewrite (V i Hi). f_equal. rewrite <- corr_flip. apply corr_ext; [reflexivity|]. intros j Hj.
    unfold elem0, elem. destruct (F [j]) as [_ ->]; [repeat constructor; cbn; lia|]. reflexivity.
Qed.
Lemma flip3 w W B A : vwf w -> vdims w = [W; B; A] -> exists s0 s1 s2, vstr w = [s0; s1; s2] /\
  let w' := View (vblk w) (voff w + (W - 1) * s0) [W; A; B] [- s0; s2; s1] in
  vwf w' /\ forall ix, in_range ix (vdims w') -> in_range [W - 1 - nth 0 ix 0; nth 2 ix 0; nth 1 ix 0] (vdims w) /\ vaddr w' ix = vaddr w [W - 1 - nth 0 ix 0; nth 2 ix 0; nth 1 ix 0].
Proof.
  intros [L Nn] E. destruct w as [bw ow dw sw]. cbn in L, Nn, E. subst dw. destruct sw as [|s0 [|s1 [|s2 [|]]]]; try discriminate. exists s0, s1, s2. split; [reflexivity|]. cbn zeta. cbn [vblk voff].
  split. { split; [reflexivity|]. inversion Nn as [|? ? N0 Nn']; subst. inversion Nn' as [|? ? N1 Nn'']; subst. inversion Nn'' as [|? ? N2 _]; subst. repeat constructor; assumption. }
  intros ix Hix. apply in_range_3_inv in Hix as (j & a & b & -> & Hj & Ha & Hb). cbn [nth vdims]. split; [apply in_range_3; lia|]. rewrite !vaddr_ok by reflexivity. cbn. do 2 f_equal. lia.
Qed.
Lemma back0_2_ok r x w N X W A B (m : memR) : vwf r -> vwf x -> vwf w -> vdims r = [N; B] -> vdims x = [X; A] -> vdims w = [W; B; A] -> distinct_cells x ->
  readable m r -> readable m x -> readable m w -> disjoint_views x r -> disjoint_views x w ->
  exists m', conv_back0 r x w m = Ok m' /\ (forall i a v, 0 <= i < X -> 0 <= a < A -> elem m x [i; a] = Some v ->
    elem m' x [i; a] = Some (cadd v (sum_to B (fun b => corr_dx N W (W - 1 - centred X N W) (fun p => elem0 m r [p; b]) (fun j => elem0 m w [j; b; a]) i)))) /\ untouched m m' x.
Proof.
  intros Wr Wx Ww Er Ex Ew Dx Rr Rx Rw Dr Dw. unfold conv_back0, ndims. rewrite Ew. cbn [length Z.of_nat Z.eqb Pos.eqb Pos.of_succ_nat Pos.succ assrt].
  rewrite (gdim_at w 0 W), (gdim_at w 1 B), (gdim_at w 2 A) by (rewrite ?Ew; cbn; lia || reflexivity). destruct (flip3 w W B A Ww Ew) as (s0 & s1 & s2 & Es & Ww' & F). rewrite Es.
  change (zget [s0; s1; s2] 0) with (Ok s0). change (zget [s0; s1; s2] 1) with (Ok s1). change (zget [s0; s1; s2] 2) with (Ok s2). cbn [bind]. set (w' := View (vblk w) _ _ _) in *.
  destruct (conv2_ok x r w' X N W B A m) as (m' & E & V & U); try assumption; try reflexivity.
  - now apply (sub_readable m w' w (fun ix => [W - 1 - nth 0 ix 0; nth 2 ix 0; nth 1 ix 0])).
  - now apply (sub_disjoint x w' w (fun ix => [W - 1 - nth 0 ix 0; nth 2 ix 0; nth 1 ix 0])).
  - exists m'. split; [exact E|]. split; [|exact U]. intros i a v Hi Ha Ev. rewrite (V i a v Hi Ha Ev). do 2 f_equal. apply sum_ext. intros b Hb.
    rewrite <- (corr_flip N W (centred X N W) (fun p => elem0 m r [p; b]) (fun j => elem0 m w [j; b; a])). apply corr_ext; [reflexivity|]. intros j Hj.
    unfold elem0, elem. destruct (F [j; a; b]) as [_ ->]; [apply in_range_3; lia|]. reflexivity.
Qed.
Lemma back0_3_ok r x w N X W A B C (m : memR) : vwf r -> vwf x -> vwf w -> vdims r = [N; B; C] -> vdims x = [X; A; C] -> vdims w = [W; B; A] -> distinct_cells x ->
  readable m r -> readable m x -> readable m w -> disjoint_views x r -> disjoint_views x w ->
  exists m', conv_back0 r x w m = Ok m' /\ (forall i a c v, 0 <= i < X -> 0 <= a < A -> 0 <= c < C -> elem m x [i; a; c] = Some v ->
    elem m' x [i; a; c] = Some (cadd v (sum_to B (fun b => corr_dx N W (W - 1 - centred X N W) (fun p => elem0 m r [p; b; c]) (fun j => elem0 m w [j; b; a]) i)))) /\ untouched m m' x.
Proof.
  intros Wr Wx Ww Er Ex Ew Dx Rr Rx Rw Dr Dw. unfold conv_back0, ndims. rewrite Ew. cbn [length Z.of_nat Z.eqb Pos.eqb Pos.of_succ_nat Pos.succ assrt].
  rewrite (gdim_at w 0 W), (gdim_at w 1 B), (gdim_at w 2 A) by (rewrite ?Ew; cbn; lia || reflexivity). destruct (flip3 w W B A Ww Ew) as (s0 & s1 & s2 & Es & Ww' & F). rewrite Es.
  change (zget [s0; s1; s2] 0) with (Ok s0). change (zget [s0; s1; s2] 1) with (Ok s1). change (zget [s0; s1; s2] 2) with (Ok s2). cbn [bind]. set (w' := View (vblk w) _ _ _) in *.
  destruct (conv3_ok x r w' X N W B A C m) as (m' & E & V & U); try assumption; try reflexivity.
  - now apply (sub_readable m w' w (fun ix => [W - 1 - nth 0 ix 0; nth 2 ix 0; nth 1 ix 0])).
  - now apply (sub_disjoint x w' w (fun ix => [W - 1 - nth 0 ix 0; nth 2 ix 0; nth 1 ix 0])).
  - exists m'. split; [exact E|]. split; [|exact U]. intros i a c v Hi Ha Hc Ev. rewrite (V i a c v Hi Ha Hc Ev). do 2 f_equal. apply sum_ext. intros b Hb.
    rewrite <- (corr_flip N W (centred X N W) (fun p => elem0 m r [p; b; c]) (fun j => elem0 m w [j; b; a])). apply corr_ext; [reflexivity|]. intros j Hj.
    unfold elem0, elem. destruct (F [j; a; b]) as [_ ->]; [apply in_range_3; lia|]. reflexivity.
Qed.

(* ---- gradient of the filter *)
Lemma back1_1_ok r x w N X W (m : memR) : vwf r -> vwf x -> vwf w -> vdims r = [N] -> vdims x = [X] -> vdims w = [W] -> distinct_cells w ->
  readable m r -> readable m x -> readable m w -> disjoint_views w x -> disjoint_views w r ->
  exists m', conv_back1 r x w m = Ok m' /\ (forall j, 0 <= j < W -> elem m' w [j] = Some (corr_dw N X (centred N X W) (fun p => elem0 m r [p]) (fun q => elem0 m x [q]) j)) /\ untouched m m' w.
Proof.
  intros Wr Wx Ww Er Ex Ew Dw Rr Rx Rw Dx Dr. unfold conv_back1, back1_lvl, ndims. rewrite Er, Ex. cbn [length Z.of_nat Z.eqb Pos.eqb Pos.of_succ_nat assrt].
  destruct (conv1_ok w x r W X N m) as (m' & E & V & U); try assumption. exists m'. split; [exact E|]. split; [|exact U]. intros j Hj. rewrite (V j Hj). now rewrite corr_swap, centred_comm.
Qed.
Lemma unsq1 x X A : vwf x -> vdims x = [X; A] -> exists x', unsqueeze 1 x = Ok x' /\ vwf x' /\ vdims x' = [X; 1; A] /\ forall ix, in_range ix (vdims x') -> in_range [nth 0 ix 0; nth 2 ix 0] (vdims x) /\ vaddr x' ix = vaddr x [nth 0 ix 0; nth 2 ix 0].
Proof.
  intros W E. destruct x as [b o ds ss]. pose proof W as [L Nn]. cbn in L, Nn, E. subst ds. destruct ss as [|s0 [|s1 [|]]]; try discriminate. unfold unsqueeze. cbn [vdims vstr vblk voff].
  destruct (memsize [s0; s1] [X; A]) as [q| |] eqn:Em; [|unfold memsize in Em; cbn in Em; destruct (_ =? 0) in Em; discriminate Em..]. cbn [bind]. change (zget [s0; s1] (1 - 1)) with (Ok s0). cbn [bind Z.eqb]. unfold vinsert.
  exists (View b o [X; 1; A] [s0; s0; s1]). split; [reflexivity|]. inversion Nn as [|? ? N0 Nn']; subst. inversion Nn' as [|? ? N1 _]; subst. split; [split; [reflexivity|repeat constructor; cbn; lia]|]. split; [reflexivity|].
  intros ix Hix. apply in_range_3_inv in Hix as (j & k & a & -> & Hj & Hk & Ha). assert (k = 0) as -> by lia. cbn [nth]. split; [apply in_range_2; lia|]. rewrite !vaddr_ok by reflexivity. cbn. do 2 f_equal. lia.
Qed.
Lemma unsq2 x X A : vwf x -> vdims x = [X; A] -> exists x', unsqueeze 2 x = Ok x' /\ vwf x' /\ vdims x' = [X; A; 1] /\ forall ix, in_range ix (vdims x') -> in_range [nth 0 ix 0; nth 1 ix 0] (vdims x) /\ vaddr x' ix = vaddr x [nth 0 ix 0; nth 1 ix 0].
Proof.
  intros W E. destruct x as [b o ds ss]. pose proof W as [L Nn]. cbn in L, Nn, E. subst ds. destruct ss as [|s0 [|s1 [|]]]; try discriminate. unfold unsqueeze. cbn [vdims vstr vblk voff].
  destruct (memsize [s0; s1] [X; A]) as [q| |] eqn:Em; [|unfold memsize in Em; cbn in Em; destruct (_ =? 0) in Em; discriminate Em..]. cbn [bind]. change (zget [s0; s1] (2 - 1)) with (Ok s1). cbn [bind Z.eqb]. unfold vinsert.
  exists (View b o [X; A; 1] [s0; s1; s1]). split; [reflexivity|]. inversion Nn as [|? ? N0 Nn']; subst. inversion Nn' as [|? ? N1 _]; subst. split; [split; [reflexivity|repeat constructor; cbn; lia]|]. split; [reflexivity|].
  intros ix Hix. apply in_range_3_inv in Hix as (j & k & a & -> & Hj & Hk & Ha). assert (a = 0) as -> by lia. cbn [nth]. split; [apply in_range_2; lia|]. rewrite !vaddr_ok by reflexivity. cbn. do 2 f_equal. lia.
Qed.
Lemma transp12 x X A C : vwf x -> vdims x = [X; A; C] -> exists x', transp_ab 1 2 x = Ok x' /\ vwf x' /\ vdims x' = [X; C; A] /\ forall ix, in_range ix (vdims x') -> in_range [nth 0 ix 0; nth 2 ix 0; nth 1 ix 0] (vdims x) /\ vaddr x' ix = vaddr x [nth 0 ix 0; nth 2 ix 0; nth 1 ix 0].
Proof.
  intros W E. destruct x as [b o ds ss]. pose proof W as [L Nn]. cbn in L, Nn, E. subst ds. destruct ss as [|s0 [|s1 [|s2 [|]]]]; try discriminate. exists (View b o [X; C; A] [s0; s2; s1]). split; [reflexivity|]. inversion Nn as [|? ? N0 Nn']; subst. inversion Nn' as [|? ? N1 Nn'']; subst. inversion Nn'' as [|? ? N2 _]; subst. split; [split; [reflexivity|repeat constructor; assumption]|]. split; [reflexivity|].
  intros ix Hix. apply in_range_3_inv in Hix as (j & k & a & -> & Hj & Hk & Ha). cbn [nth]. split; [apply in_range_3; lia|]. rewrite !vaddr_ok by reflexivity. cbn. do 2 f_equal. lia.
Qed.
Lemma sum_1 (f : Z -> R) : sum_to 1 f = f 0.
Proof. unfold sum_to. change (zrange 1) with [0]. cbn [map]. rewrite rsum_cons, rsum_nil. ring. Qed.
Lemma back1_2_ok r x w N X W A B (m : memR) : vwf r -> vwf x -> vwf w -> vdims r = [N; B] -> vdims x = [X; A] -> vdims w = [W; B; A] -> distinct_cells w ->
  readable m r -> readable m x -> readable m w -> disjoint_views w x -> disjoint_views w r ->
  exists m', conv_back1 r x w m = Ok m' /\ (forall j b a v, 0 <= j < W -> 0 <= b < B -> 0 <= a < A -> elem m w [j; b; a] = Some v ->
    elem m' w [j; b; a] = Some (cadd v (corr_dw N X (centred N X W) (fun p => elem0 m r [p; b]) (fun q => elem0 m x [q; a]) j))) /\ untouched m m' w.
Proof.
  intros Wr Wx Ww Er Ex Ew Dw Rr Rx Rw Dx Dr. unfold conv_back1, back1_lvl, ndims. rewrite Er, Ex, Ew. cbn [length Z.of_nat Z.eqb Pos.eqb Pos.of_succ_nat Pos.succ assrt].
  destruct (unsq1 x X A Wx Ex) as (x' & Eu & Wx' & Ex' & Fx). destruct (unsq2 r N B Wr Er) as (r' & Ev & Wr' & Er' & Fr). rewrite Eu, Ev. cbn [bind].
  destruct (conv3_ok w x' r' W X N 1 B A m) as (m' & E & V & U); try assumption.
  - now apply (sub_readable m x' x (fun ix => [nth 0 ix 0; nth 2 ix 0])).
  - now apply (sub_readable m r' r (fun ix => [nth 0 ix 0; nth 1 ix 0])).
  - now apply (sub_disjoint w x' x (fun ix => [nth 0 ix 0; nth 2 ix 0])).
  - now apply (sub_disjoint w r' r (fun ix => [nth 0 ix 0; nth 1 ix 0])).
  - exists m'. split; [exact E|]. split; [|exact U]. intros j b a v Hj Hb Ha Hv. rewrite (V j b a v Hj Hb Ha Hv). do 2 f_equal. rewrite sum_1, corr_swap, centred_comm. apply sum_ext. intros p Hp. f_equal.
    + unfold elem0, elem. destruct (Fr [p; b; 0]) as [_ ->]; [rewrite Er'; apply in_range_3; lia|]. reflexivity.
    + apply zpad_ext. intro Hq. unfold elem0, elem. match goal with |- context [vaddr x' ?ix] => destruct (Fx ix) as [_ ->]; [rewrite Ex'; apply in_range_3; lia|] end. reflexivity.
Qed.
Lemma back1_3_gains rec r x w N X W A B C (m : memR) : vwf r -> vwf x -> vwf w -> vdims r = [N; B; C] -> vdims x = [X; A; C] -> vdims w = [W; B; A] -> distinct_cells w ->
  readable m r -> readable m x -> readable m w -> disjoint_views w x -> disjoint_views w r ->
  exists m', back1_lvl rec r x w m = Ok m' /\ gains m m' w (fun ix => sum_to C (fun c => corr_dw N X (centred N X W) (fun p => elem0 m r [p; nth 1 ix 0; c]) (fun q => elem0 m x [q; nth 2 ix 0; c]) (nth 0 ix 0))).
Proof.
  intros Wr Wx Ww Er Ex Ew Dw Rr Rx Rw Dx Dr. unfold back1_lvl, ndims. rewrite Er, Ex, Ew. cbn [length Z.of_nat Z.eqb Pos.eqb Pos.of_succ_nat Pos.succ assrt].
  destruct (transp12 x X A C Wx Ex) as (x' & Eu & Wx' & Ex' & Fx). rewrite Eu. cbn [bind].
  destruct (conv3_ok w x' r W X N C B A m) as (m' & E & V & U); try assumption.
  - now apply (sub_readable m x' x (fun ix => [nth 0 ix 0; nth 2 ix 0; nth 1 ix 0])).
  - now apply (sub_disjoint w x' x (fun ix => [nth 0 ix 0; nth 2 ix 0; nth 1 ix 0])).
  - exists m'. split; [exact E|]. split; [|exact U]. intros ix v Hix Hv. rewrite Ew in Hix. apply in_range_3_inv in Hix as (j & b & a & -> & Hj & Hb & Ha). cbn [nth]. rewrite (V j b a v Hj Hb Ha Hv). do 2 f_equal.
    apply sum_ext. intros c Hc. rewrite corr_swap, centred_comm. apply sum_ext. intros p Hp. f_equal.
    apply zpad_ext. intro Hq. unfold elem0, elem. match goal with |- context [vaddr x' ?ix] => destruct (Fx ix) as [_ ->]; [rewrite Ex'; apply in_range_3; lia|] end. reflexivity.
Qed.
Lemma back1_3_ok r x w N X W A B C (m : memR) : vwf r -> vwf x -> vwf w -> vdims r = [N; B; C] -> vdims x = [X; A; C] -> vdims w = [W; B; A] -> distinct_cells w ->
  readable m r -> readable m x -> readable m w -> disjoint_views w x -> disjoint_views w r ->
  exists m', conv_back1 r x w m = Ok m' /\ (forall j b a v, 0 <= j < W -> 0 <= b < B -> 0 <= a < A -> elem m w [j; b; a] = Some v ->
    elem m' w [j; b; a] = Some (cadd v (sum_to C (fun c => corr_dw N X (centred N X W) (fun p => elem0 m r [p; b; c]) (fun q => elem0 m x [q; a; c]) j)))) /\ untouched m m' w.
Proof.
  intros Wr Wx Ww Er Ex Ew Dw Rr Rx Rw Dx Dr. destruct (back1_3_gains (back1_lvl (fun _ _ _ m => Ok m)) r x w N X W A B C m) as (m' & E & V & U); try assumption.
  exists m'. split; [exact E|]. split; [|exact U]. intros j b a v Hj Hb Ha Hv. apply (V [j; b; a] v); [rewrite Ew; now apply in_range_3|exact Hv].
Qed.
Lemma back1_4_ok r x w M N X W A B C (m : memR) : vwf r -> vwf x -> vwf w -> vdims r = [M; N; B; C] -> vdims x = [M; X; A; C] -> vdims w = [W; B; A] -> distinct_cells w ->
  readable m r -> readable m x -> readable m w -> disjoint_views w x -> disjoint_views w r ->
  exists m', conv_back1 r x w m = Ok m' /\ (forall j b a v, 0 <= j < W -> 0 <= b < B -> 0 <= a < A -> elem m w [j; b; a] = Some v ->
    elem m' w [j; b; a] = Some (cadd v (sum_to M (fun e => sum_to C (fun c => corr_dw N X (centred N X W) (fun p => elem0 m r [e; p; b; c]) (fun q => elem0 m x [e; q; a; c]) j))))) /\ untouched m m' w.
Proof.
  intros Wr Wx Ww Er Ex Ew Dw Rr Rx Rw Dx Dr. unfold conv_back1. unfold back1_lvl at 1, ndims. rewrite Er, Ex, Ew. cbn [length Z.of_nat Z.eqb Pos.eqb Pos.of_succ_nat Pos.succ assrt].
  rewrite (gdim_at x 0 M) by (rewrite ?Ex; cbn; lia || reflexivity). cbn [bind]. unfold forZ.
  destruct (gains_seq w (fun b m => do rr <- slice 0 b r; do xx <- slice 0 b x; back1_lvl (fun _ _ _ m => Ok m) rr xx w m)
    (fun e ix => sum_to C (fun c => corr_dw N X (centred N X W) (fun p => elem0 m r [e; p; nth 1 ix 0; c]) (fun q => elem0 m x [e; q; nth 2 ix 0; c]) (nth 0 ix 0))) (zrange M) m Rw) as (m' & E & V & U).
  - intros e m1 He Rw1 U1. apply in_zrange in He. destruct (slice_first r e M _ Wr Er) as (rr & Es & Wrr & Err & Ear). destruct (slice_first x e M _ Wx Ex) as (xx & Et & Wxx & Exx & Eax). rewrite Es, Et. cbn [bind].
    assert (Fr : forall ix, in_range ix (vdims rr) -> in_range (e :: ix) (vdims r) /\ vaddr rr ix = vaddr r (e :: ix)).
    { intros ix Hix. rewrite Err in Hix. split; [rewrite Er; now apply in_range_cons|]. apply Ear. now apply in_range_length. }
    assert (Fx : forall ix, in_range ix (vdims xx) -> in_range (e :: ix) (vdims x) /\ vaddr xx ix = vaddr x (e :: ix)).
    { intros ix Hix. rewrite Exx in Hix. split; [rewrite Ex; now apply in_range_cons|]. apply Eax. now apply in_range_length. }
    pose proof (keep_readable w x m m1 Dx U1 Rx) as Rx1. pose proof (keep_readable w r m m1 Dr U1 Rr) as Rr1.
    destruct (back1_3_gains (fun _ _ _ m => Ok m) rr xx w N X W A B C m1) as (m2 & E2 & G2); try assumption.
    + now apply (sub_readable m1 rr r (cons e)).
    + now apply (sub_readable m1 xx x (cons e)).
    + now apply (sub_disjoint w xx x (cons e)).
    + now apply (sub_disjoint w rr r (cons e)).
    + exists m2. split; [exact E2|]. apply (gains_ext _ _ _ _ _ G2). intros ix Hix. rewrite Ew in Hix. apply in_range_3_inv in Hix as (j & b & a & -> & Hj & Hb & Ha). cbn [nth].
      apply sum_ext. intros c Hc. apply sum_ext. intros p Hp. f_equal.
      * destruct (Fr [p; b; c]) as [H1 H2]; [rewrite Err; now apply in_range_3|]. rewrite <- (keep_elem0 w r m m1) by assumption. unfold elem0, elem. now rewrite H2.
      * apply zpad_ext. intro Hq. match goal with |- elem0 m1 xx ?ix = _ => destruct (Fx ix) as [H1 H2]; [rewrite Exx; apply in_range_3; lia|] end. rewrite <- (keep_elem0 w x m m1) by assumption. unfold elem0, elem. now rewrite H2.
  - exists m'. split; [exact E|]. split; [|exact U]. intros j b a v Hj Hb Ha Hv. apply (V [j; b; a] v); [rewrite Ew; now apply in_range_3|exact Hv].
Qed.

(* ---- convolve1d *)
Lemma fresh_conv b dims (m : memR) x : nonneg dims -> vwf x -> vblk x <> b -> readable m x ->
  let m0 := alloc c0 b (asize dims) m in let r := fresh_view b dims in
  vwf r /\ distinct_cells r /\ readable m0 r /\ (forall ix, in_range ix dims -> elem m0 r ix = Some c0) /\ readable m0 x /\ disjoint_views r x /\ forall ix, elem0 m0 x ix = elem0 m x ix.
Proof.
  intros Hn [Lx _] Hb Rx. cbn zeta. split; [now apply fresh_wf|]. split; [apply (fresh_inside b dims Hn)|]. destruct (alloc_readable m b dims Hn) as [A B]. split; [exact A|]. split; [exact B|].
  assert (E : forall ix, elem (alloc c0 b (asize dims) m) x ix = elem m x ix) by (intro; now apply Proofs_Einsum6.alloc_other).
  split; [intros ix Hix; rewrite E; now apply Rx|]. split; [now apply fresh_disjoint|]. intro ix. unfold elem0. now rewrite E.
Qed.
Lemma untouched_fresh b dims (m m' : memR) : nonneg dims -> untouched (alloc c0 b (asize dims) m) m' (fresh_view b dims) -> forall b' a, b' <> b -> m' b' a = m b' a.
Proof.
  intros Hn U b' a Hb. rewrite U; [unfold alloc; destruct (Z.eqb_spec b' b); [congruence|reflexivity]|].
  intros ix Hix E. destruct (fresh_inside b dims Hn) as [Hi _]. destruct (Hi ix Hix) as (q & Eq & _). rewrite Eq in E. congruence.
Qed.
Lemma out_centred X W pad : centred (out_len X W pad) X W = out_pad W pad.
Proof.
  unfold centred, out_len, out_pad. destruct (pad =? -1).
  - f_equal. lia.
  - replace (X + 2 * pad - W + 1 - X + W - 1) with (pad * 2) by lia. apply Z.quot_mul. lia.
Qed.
Lemma forallb_nonneg dims : nonneg dims -> forallb (fun d => 0 <=? d) dims = true.
Proof. intro H. apply forallb_forall. intros d Hd. unfold nonneg in H. rewrite Forall_forall in H. apply Z.leb_le. now apply H. Qed.
Lemma convolve1d_1_ok b x w X W pad (m : memR) : vwf x -> vwf w -> vdims x = [X] -> vdims w = [W] -> readable m x -> readable m w -> vblk x <> b -> vblk w <> b -> 0 <= out_len X W pad ->
  exists m', convolve1d b x w pad m = Ok (fresh_view b [out_len X W pad], m') /\
    (forall i, 0 <= i < out_len X W pad -> elem m' (fresh_view b [out_len X W pad]) [i] = Some (corr X W (out_pad W pad) (fun q => elem0 m x [q]) (fun j => elem0 m w [j]) i)) /\
    forall b' a, b' <> b -> m' b' a = m b' a.
Proof.
  intros Wx Ww Ex Ew Rx Rw Bx Bw HN. unfold convolve1d. rewrite (gdim_at x 0 X), (gdim_at w 0 W) by (rewrite ?Ex, ?Ew; cbn; lia || reflexivity). cbn [bind]. unfold ndims. rewrite Ex. cbn [length Z.of_nat Z.eqb Pos.eqb Pos.of_succ_nat].
  fold (out_len X W pad). set (N := out_len X W pad) in *. assert (Hn : nonneg [N]) by (repeat constructor; assumption). unfold conv_result. rewrite forallb_nonneg by assumption.
  destruct (fresh_conv b [N] m x Hn Wx Bx Rx) as (Wr & Dr & Rr & Zr & Rx0 & Dx & Kx). destruct (fresh_conv b [N] m w Hn Ww Bw Rw) as (_ & _ & _ & _ & Rw0 & Dw & Kw).
  destruct (conv1_ok (fresh_view b [N]) x w N X W (alloc c0 b (asize [N]) m)) as (m' & E & V & U); try assumption; try reflexivity.
  rewrite E. cbn [bind]. exists m'. split; [reflexivity|]. split; [|now apply (untouched_fresh b [N])]. intros i Hi. rewrite (V i Hi). f_equal. unfold N at 1. rewrite out_centred. apply corr_ext; auto.
Qed.
Lemma convolve1d_2_ok b x w X W A B pad (m : memR) : vwf x -> vwf w -> vdims x = [X; A] -> vdims w = [W; B; A] -> readable m x -> readable m w -> vblk x <> b -> vblk w <> b -> 0 <= out_len X W pad ->
  exists m', convolve1d b x w pad m = Ok (fresh_view b [out_len X W pad; B], m') /\
    (forall i c, 0 <= i < out_len X W pad -> 0 <= c < B -> elem m' (fresh_view b [out_len X W pad; B]) [i; c] = Some (sum_to A (fun a => corr X W (out_pad W pad) (fun q => elem0 m x [q; a]) (fun j => elem0 m w [j; c; a]) i))) /\
    forall b' a, b' <> b -> m' b' a = m b' a.
Proof.
  intros Wx Ww Ex Ew Rx Rw Bx Bw HN. unfold convolve1d. rewrite (gdim_at x 0 X), (gdim_at w 0 W) by (rewrite ?Ex, ?Ew; cbn; lia || reflexivity). cbn [bind]. unfold gdim, ndims. rewrite Ex, Ew. cbn [length Z.of_nat Z.eqb Pos.eqb Pos.of_succ_nat Pos.succ assrt Z.ltb Z.compare].
  change (zget [W; B; A] (3 + -2)) with (Ok B). cbn [bind].
  fold (out_len X W pad). set (N := out_len X W pad) in *. assert (Hn : nonneg [N; B]) by (destruct Ww as [_ Nw]; rewrite Ew in Nw; inversion Nw as [|? ? N0 Nw']; subst; inversion Nw'; subst; repeat constructor; assumption). unfold conv_result. rewrite forallb_nonneg by assumption.
  destruct (fresh_conv b [N; B] m x Hn Wx Bx Rx) as (Wr & Dr & Rr & Zr & Rx0 & Dx & Kx). destruct (fresh_conv b [N; B] m w Hn Ww Bw Rw) as (_ & _ & _ & _ & Rw0 & Dw & Kw).
  destruct (conv2_ok (fresh_view b [N; B]) x w N X W A B (alloc c0 b (asize [N; B]) m)) as (m' & E & V & U); try assumption; try reflexivity.
  rewrite E. cbn [bind]. exists m'. split; [reflexivity|]. split; [|now apply (untouched_fresh b [N; B])]. intros i c Hi Hc. rewrite (V i c c0 Hi Hc) by (apply Zr; now apply in_range_2). f_equal. unfold N at 1. rewrite out_centred.
  match goal with |- cadd c0 ?a = _ => transitivity a; [ring|] end. apply sum_ext. intros a Ha. apply corr_ext; auto.
Qed.
Lemma convolve1d_3_ok b x w X W A B C pad (m : memR) : vwf x -> vwf w -> vdims x = [X; A; C] -> vdims w = [W; B; A] -> readable m x -> readable m w -> vblk x <> b -> vblk w <> b -> 0 <= out_len X W pad ->
  exists m', convolve1d b x w pad m = Ok (fresh_view b [out_len X W pad; B; C], m') /\
    (forall i d c, 0 <= i < out_len X W pad -> 0 <= d < B -> 0 <= c < C -> elem m' (fresh_view b [out_len X W pad; B; C]) [i; d; c] = Some (sum_to A (fun a => corr X W (out_pad W pad) (fun q => elem0 m x [q; a; c]) (fun j => elem0 m w [j; d; a]) i))) /\
    forall b' a, b' <> b -> m' b' a = m b' a.
Proof.
  intros Wx Ww Ex Ew Rx Rw Bx Bw HN. unfold convolve1d. rewrite (gdim_at x 0 X), (gdim_at w 0 W), (gdim_at x 2 C) by (rewrite ?Ex, ?Ew; cbn; lia || reflexivity). cbn [bind]. unfold gdim, ndims. rewrite Ex, Ew. cbn [length Z.of_nat Z.eqb Pos.eqb Pos.of_succ_nat Pos.succ assrt Z.ltb Z.compare].
  change (zget [W; B; A] (3 + -2)) with (Ok B). cbn [bind].
  fold (out_len X W pad). set (N := out_len X W pad) in *.
  assert (Hn : nonneg [N; B; C]). { destruct Ww as [_ Nw]. destruct Wx as [_ Nx]. rewrite Ew in Nw. rewrite Ex in Nx. inversion Nw as [|? ? N0 Nw']; subst. inversion Nw'; subst. inversion Nx as [|? ? N1 Nx']; subst. inversion Nx' as [|? ? N2 Nx'']; subst. inversion Nx''; subst. repeat constructor; assumption. }
  unfold conv_result. rewrite forallb_nonneg by assumption.
  destruct (fresh_conv b [N; B; C] m x Hn Wx Bx Rx) as (Wr & Dr & Rr & Zr & Rx0 & Dx & Kx). destruct (fresh_conv b [N; B; C] m w Hn Ww Bw Rw) as (_ & _ & _ & _ & Rw0 & Dw & Kw).
  destruct (conv3_ok (fresh_view b [N; B; C]) x w N X W A B C (alloc c0 b (asize [N; B; C]) m)) as (m' & E & V & U); try assumption; try reflexivity.
  rewrite E. cbn [bind]. exists m'. split; [reflexivity|]. split; [|now apply (untouched_fresh b [N; B; C])]. intros i d c Hi Hd Hc. rewrite (V i d c c0 Hi Hd Hc) by (apply Zr; now apply in_range_3). f_equal. unfold N at 1. rewrite out_centred.
  match goal with |- cadd c0 ?a = _ => transitivity a; [ring|] end. apply sum_ext. intros a Ha. apply corr_ext; auto.
Qed.
End S.
