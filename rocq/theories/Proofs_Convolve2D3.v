(* Proofs_Convolve2D3.v -- gradients of two-dimensional convolution. *)
From Verif Require Import Base BaseFacts Model_Index Model_View Model_Tensor Model_Einsum Model_Convolve Model_Convolve2D Spec_Index Spec_View Spec_Tensor Spec_Convolve Spec_Convolve2D
  Proofs_Index Proofs_View Proofs_View2 Proofs_Tensor Proofs_Tensor2 Proofs_Tensor3 Proofs_Einsum6 Proofs_Einsum7 Proofs_Convolve Proofs_Convolve2 Proofs_Convolve3 Proofs_Convolve2D Proofs_Convolve2D2.
Local Open Scope Z_scope.

Ltac nonnegs := unfold nonneg in *; repeat match goal with H : Forall _ (_ :: _) |- _ => inversion H; clear H; subst end; cbn; repeat (apply Forall_cons; [assumption || lia|]); apply Forall_nil.
Lemma gdim_4 v a b c d : vdims v = [a; b; c; d] -> gdim v 0 = Ok a /\ gdim v 1 = Ok b /\ gdim v 2 = Ok c /\ gdim v 3 = Ok d.
Proof. intro E. unfold gdim. rewrite E. repeat split. Qed.
Definition fl2 (W0 W1 : Z) (ix : list Z) : list Z := [W0 - 1 - nth 0 ix 0; W1 - 1 - nth 1 ix 0].
Definition fl4 (W0 W1 : Z) (ix : list Z) : list Z := [W0 - 1 - nth 0 ix 0; W1 - 1 - nth 1 ix 0; nth 3 ix 0; nth 2 ix 0].
Lemma flip2 w W0 W1 : vwf w -> vdims w = [W0; W1] -> exists s0 s1, vstr w = [s0; s1] /\
  let w' := View (vblk w) (voff w + (W0 - 1) * s0 + (W1 - 1) * s1) [W0; W1] [- s0; - s1] in
  vwf w' /\ forall ix, in_range ix (vdims w') -> in_range (fl2 W0 W1 ix) (vdims w) /\ vaddr w' ix = vaddr w (fl2 W0 W1 ix).
Proof.
  intros [L Nn] E. destruct w as [bw ow dw sw]. cbn in L, Nn, E. subst dw. destruct sw as [|s0 [|s1 [|]]]; try discriminate. exists s0, s1. split; [reflexivity|]. cbn zeta. cbn [vblk voff].
  split. { split; [reflexivity|]. nonnegs. }
  intros ix Hix. apply in_range_2_inv in Hix as (j & a & -> & Hj & Ha). unfold fl2. cbn [nth vdims]. split; [apply in_range_2; lia|]. rewrite !vaddr_ok by reflexivity. cbn. do 2 f_equal. lia.
Qed.
Lemma flip4 w W0 W1 B A : vwf w -> vdims w = [W0; W1; B; A] -> exists s0 s1 s2 s3, vstr w = [s0; s1; s2; s3] /\
  let w' := View (vblk w) (voff w + (W0 - 1) * s0 + (W1 - 1) * s1) [W0; W1; A; B] [- s0; - s1; s3; s2] in
  vwf w' /\ forall ix, in_range ix (vdims w') -> in_range (fl4 W0 W1 ix) (vdims w) /\ vaddr w' ix = vaddr w (fl4 W0 W1 ix).
Proof.
  intros [L Nn] E. destruct w as [bw ow dw sw]. cbn in L, Nn, E. subst dw. destruct sw as [|s0 [|s1 [|s2 [|s3 [|]]]]]; try discriminate. exists s0, s1, s2, s3. split; [reflexivity|]. cbn zeta. cbn [vblk voff].
  split. { split; [reflexivity|]. nonnegs. }
  intros ix Hix. apply in_range_4_inv in Hix as (j & k & a & b & -> & Hj & Hk & Ha & Hb). unfold fl4. cbn [nth vdims]. split; [apply in_range_4; lia|]. rewrite !vaddr_ok by reflexivity. cbn. do 2 f_equal. lia.
Qed.
Lemma unsq2_3 x X0 X1 A : vwf x -> vdims x = [X0; X1; A] -> exists x', unsqueeze 2 x = Ok x' /\ vwf x' /\ vdims x' = [X0; X1; 1; A] /\ forall ix, in_range ix (vdims x') -> in_range [nth 0 ix 0; nth 1 ix 0; nth 3 ix 0] (vdims x) /\ vaddr x' ix = vaddr x [nth 0 ix 0; nth 1 ix 0; nth 3 ix 0].
Proof.
  intros W E. destruct x as [b o ds ss]. pose proof W as [L Nn]. cbn in L, Nn, E. subst ds. destruct ss as [|s0 [|s1 [|s2 [|]]]]; try discriminate. unfold unsqueeze. cbn [vdims vstr vblk voff].
  destruct (memsize [s0; s1; s2] [X0; X1; A]) as [q| |] eqn:Em; [|unfold memsize in Em; cbn in Em; destruct (_ =? 0) in Em; discriminate Em..]. cbn [bind]. change (zget [s0; s1; s2] (2 - 1)) with (Ok s1). cbn [bind Z.eqb]. unfold vinsert.
  exists (View b o [X0; X1; 1; A] [s0; s1; s1; s2]). split; [reflexivity|]. split; [split; [reflexivity|nonnegs]|]. split; [reflexivity|].
  intros ix Hix. apply in_range_4_inv in Hix as (j & k & l & a & -> & Hj & Hk & Hl & Ha). assert (l = 0) as -> by lia. cbn [nth]. split; [apply in_range_3; lia|]. rewrite !vaddr_ok by reflexivity. cbn. do 2 f_equal. lia.
Qed.
Lemma unsq3_3 x X0 X1 A : vwf x -> vdims x = [X0; X1; A] -> exists x', unsqueeze 3 x = Ok x' /\ vwf x' /\ vdims x' = [X0; X1; A; 1] /\ forall ix, in_range ix (vdims x') -> in_range [nth 0 ix 0; nth 1 ix 0; nth 2 ix 0] (vdims x) /\ vaddr x' ix = vaddr x [nth 0 ix 0; nth 1 ix 0; nth 2 ix 0].
Proof.
  intros W E. destruct x as [b o ds ss]. pose proof W as [L Nn]. cbn in L, Nn, E. subst ds. destruct ss as [|s0 [|s1 [|s2 [|]]]]; try discriminate. unfold unsqueeze. cbn [vdims vstr vblk voff].
  destruct (memsize [s0; s1; s2] [X0; X1; A]) as [q| |] eqn:Em; [|unfold memsize in Em; cbn in Em; destruct (_ =? 0) in Em; discriminate Em..]. cbn [bind]. change (zget [s0; s1; s2] (3 - 1)) with (Ok s2). cbn [bind Z.eqb]. unfold vinsert.
  exists (View b o [X0; X1; A; 1] [s0; s1; s2; s2]). split; [reflexivity|]. split; [split; [reflexivity|nonnegs]|]. split; [reflexivity|].
  intros ix Hix. apply in_range_4_inv in Hix as (j & k & l & a & -> & Hj & Hk & Hl & Ha). assert (a = 0) as -> by lia. cbn [nth]. split; [apply in_range_3; lia|]. rewrite !vaddr_ok by reflexivity. cbn. do 2 f_equal. lia.
Qed.
Definition sw23 (ix : list Z) : list Z := [nth 0 ix 0; nth 1 ix 0; nth 3 ix 0; nth 2 ix 0].
Lemma transp23 x X0 X1 A C : vwf x -> vdims x = [X0; X1; A; C] -> exists x', transp_ab 2 3 x = Ok x' /\ vwf x' /\ vdims x' = [X0; X1; C; A] /\ forall ix, in_range ix (vdims x') -> in_range (sw23 ix) (vdims x) /\ vaddr x' ix = vaddr x (sw23 ix).
Proof.
  intros W E. destruct x as [b o ds ss]. pose proof W as [L Nn]. cbn in L, Nn, E. subst ds. destruct ss as [|s0 [|s1 [|s2 [|s3 [|]]]]]; try discriminate. exists (View b o [X0; X1; C; A] [s0; s1; s3; s2]). split; [reflexivity|].
  split; [split; [reflexivity|nonnegs]|]. split; [reflexivity|].
  intros ix Hix. apply in_range_4_inv in Hix as (j & k & l & a & -> & Hj & Hk & Hl & Ha). unfold sw23. cbn [nth]. split; [apply in_range_4; lia|]. rewrite !vaddr_ok by reflexivity. cbn. do 2 f_equal. lia.
Qed.
Ltac nd := cbn [length Z.of_nat Z.eqb Pos.eqb Pos.of_succ_nat Pos.succ assrt].

Section S.
Context {R : cring}.
Add Ring RrCv2D3 : (cth R).
Notation memR := (mem (car R)).
Lemma sub_elem0 (m : memR) v w ix jx : vaddr v ix = vaddr w jx -> elem0 m v ix = elem0 m w jx.
Proof. intro E. unfold elem0, elem. now rewrite E. Qed.

(* ---- gradient of the input *)
Lemma back0_2d_ok r x w N0 N1 X0 X1 W0 W1 (m : memR) : vwf r -> vwf x -> vwf w -> vdims r = [N0; N1] -> vdims x = [X0; X1] -> vdims w = [W0; W1] -> distinct_cells x ->
  readable m r -> readable m x -> readable m w -> disjoint_views x r -> disjoint_views x w ->
  exists m', conv2_back0 r x w m = Ok m' /\ (forall i j, 0 <= i < X0 -> 0 <= j < X1 -> elem m' x [i; j] =
    Some (corr2_dx N0 N1 W0 W1 (W0 - 1 - centred X0 N0 W0) (W1 - 1 - centred X1 N1 W1) (fun a b => elem0 m r [a; b]) (fun a b => elem0 m w [a; b]) i j)) /\ untouched m m' x.
Proof.
  intros Wr Wx Ww Er Ex Ew Dx Rr Rx Rw Dr Dw. unfold conv2_back0, ndims. rewrite Ew. nd. destruct (gdim2 w _ _ _ Ew) as [-> ->]. destruct (flip2 w W0 W1 Ww Ew) as (s0 & s1 & -> & Ww' & F).
  change (zget [s0; s1] 0) with (Ok s0). change (zget [s0; s1] 1) with (Ok s1). cbn [bind]. set (w' := View (vblk w) _ _ _) in *.
  destruct (conv2_2_ok (conv2_lvl (fun _ _ _ m => Ok m)) x r w' X0 X1 N0 N1 W0 W1 m) as (m' & E & V & U); try assumption; try reflexivity.
  - now apply (sub_readable m w' w _ F).
  - now apply (sub_disjoint x w' w _ F).
  - exists m'. split; [exact E|]. split; [|exact U]. intros i j Hi Hj. rewrite (V i j Hi Hj). f_equal. rewrite <- corr2_flip. apply corr2_ext; [reflexivity|]. intros a b Ha Hb.
    apply sub_elem0. apply (F [a; b]). now apply in_range_2.
Qed.
Definition dxterm3 (N0 N1 W0 W1 p0 p1 B : Z) (g w : list Z -> R) (ix : list Z) : R :=
  sum_to B (fun b => corr2_dx N0 N1 W0 W1 p0 p1 (fun k0 k1 => g [k0; k1; b]) (fun j0 j1 => w [j0; j1; b; nth 2 ix 0]) (nth 0 ix 0) (nth 1 ix 0)).
Definition dxterm4 (N0 N1 W0 W1 p0 p1 B : Z) (g w : list Z -> R) (ix : list Z) : R :=
  sum_to B (fun b => corr2_dx N0 N1 W0 W1 p0 p1 (fun k0 k1 => g [k0; k1; b; nth 3 ix 0]) (fun j0 j1 => w [j0; j1; b; nth 2 ix 0]) (nth 0 ix 0) (nth 1 ix 0)).
Lemma back0_any (K : list Z -> R) (m : memR) r x w W0 W1 B A G : vwf w -> vdims w = [W0; W1; B; A] -> readable m w -> disjoint_views x w ->
  (forall w', vwf w' -> vdims w' = [W0; W1; A; B] -> readable m w' -> disjoint_views x w' -> (forall ix, in_range ix [W0; W1; A; B] -> elem0 m w' ix = elem0 m w (fl4 W0 W1 ix)) ->
     exists m', convolve2 x r w' m = Ok m' /\ gains m m' x G) ->
  exists m', conv2_back0 r x w m = Ok m' /\ gains m m' x G.
Proof.
  intros Ww Ew Rw Dw H. unfold conv2_back0, ndims. rewrite Ew. nd. destruct (gdim_4 w _ _ _ _ Ew) as (-> & -> & -> & ->). destruct (flip4 w W0 W1 B A Ww Ew) as (s0 & s1 & s2 & s3 & -> & Ww' & F).
  change (zget [s0; s1; s2; s3] 0) with (Ok s0). change (zget [s0; s1; s2; s3] 1) with (Ok s1). change (zget [s0; s1; s2; s3] 2) with (Ok s2). change (zget [s0; s1; s2; s3] 3) with (Ok s3). cbn [bind]. set (w' := View (vblk w) _ _ _) in *.
  apply H; try assumption; try reflexivity.
  - now apply (sub_readable m w' w _ F).
  - now apply (sub_disjoint x w' w _ F).
  - intros ix Hix. apply sub_elem0. now apply F.
Qed.
Lemma back0_3d_ok r x w N0 N1 X0 X1 W0 W1 A B (m : memR) : vwf r -> vwf x -> vwf w -> vdims r = [N0; N1; B] -> vdims x = [X0; X1; A] -> vdims w = [W0; W1; B; A] -> distinct_cells x ->
  readable m r -> readable m x -> readable m w -> disjoint_views x r -> disjoint_views x w ->
  exists m', conv2_back0 r x w m = Ok m' /\ gains m m' x (dxterm3 N0 N1 W0 W1 (W0 - 1 - centred X0 N0 W0) (W1 - 1 - centred X1 N1 W1) B (elem0 m r) (elem0 m w)).
Proof.
  intros Wr Wx Ww Er Ex Ew Dx Rr Rx Rw Dr Dw. apply (back0_any (elem0 m w) m r x w W0 W1 B A); try assumption. intros w' Ww' Ew' Rw' Dw' F.
  destruct (conv2_3_ok (conv2_lvl (fun _ _ _ m => Ok m)) x r w' X0 X1 N0 N1 W0 W1 B A m) as (m' & E & G); try assumption.
  exists m'. split; [exact E|]. apply (gains_ext _ _ _ _ _ G). intros ix Hix. rewrite Ex in Hix. apply in_range_3_inv in Hix as (i & j & a & -> & Hi & Hj & Ha). unfold cterm3, dxterm3. cbn [nth].
  apply sum_ext. intros b Hb. rewrite <- (corr2_flip N0 N1 W0 W1 (centred X0 N0 W0) (centred X1 N1 W1) (fun k0 k1 => elem0 m r [k0; k1; b]) (fun j0 j1 => elem0 m w [j0; j1; b; a])).
  apply corr2_ext; [reflexivity|]. intros j0 j1 H0 H1. apply (F [j0; j1; a; b]). now apply in_range_4.
Qed.
Lemma back0_4d_ok r x w N0 N1 X0 X1 W0 W1 A B C (m : memR) : vwf r -> vwf x -> vwf w -> vdims r = [N0; N1; B; C] -> vdims x = [X0; X1; A; C] -> vdims w = [W0; W1; B; A] -> distinct_cells x ->
  readable m r -> readable m x -> readable m w -> disjoint_views x r -> disjoint_views x w ->
  exists m', conv2_back0 r x w m = Ok m' /\ gains m m' x (dxterm4 N0 N1 W0 W1 (W0 - 1 - centred X0 N0 W0) (W1 - 1 - centred X1 N1 W1) B (elem0 m r) (elem0 m w)).
Proof.
  intros Wr Wx Ww Er Ex Ew Dx Rr Rx Rw Dr Dw. apply (back0_any (elem0 m w) m r x w W0 W1 B A); try assumption. intros w' Ww' Ew' Rw' Dw' F.
  destruct (conv2_4_ok (conv2_lvl (fun _ _ _ m => Ok m)) x r w' X0 X1 N0 N1 W0 W1 B A C m) as (m' & E & G); try assumption.
  exists m'. split; [exact E|]. apply (gains_ext _ _ _ _ _ G). intros ix Hix. rewrite Ex in Hix. apply in_range_4_inv in Hix as (i & j & a & c & -> & Hi & Hj & Ha & Hc). unfold cterm4, dxterm4. cbn [nth].
  apply sum_ext. intros b Hb. rewrite <- (corr2_flip N0 N1 W0 W1 (centred X0 N0 W0) (centred X1 N1 W1) (fun k0 k1 => elem0 m r [k0; k1; b; c]) (fun j0 j1 => elem0 m w [j0; j1; b; a])).
  apply corr2_ext; [reflexivity|]. intros j0 j1 H0 H1. apply (F [j0; j1; a; b]). now apply in_range_4.
Qed.
Lemma back0_5d_ok r x w M N0 N1 X0 X1 W0 W1 A B C (m : memR) : vwf r -> vwf x -> vwf w -> vdims r = [M; N0; N1; B; C] -> vdims x = [M; X0; X1; A; C] -> vdims w = [W0; W1; B; A] -> distinct_cells x ->
  readable m r -> readable m x -> readable m w -> disjoint_views x r -> disjoint_views x w ->
  exists m', conv2_back0 r x w m = Ok m' /\ gains m m' x (fun ix => match ix with e :: t => dxterm4 N0 N1 W0 W1 (W0 - 1 - centred X0 N0 W0) (W1 - 1 - centred X1 N1 W1) B (fun t => elem0 m r (e :: t)) (elem0 m w) t | [] => c0 end).
Proof.
  intros Wr Wx Ww Er Ex Ew Dx Rr Rx Rw Dr Dw. apply (back0_any (elem0 m w) m r x w W0 W1 B A); try assumption. intros w' Ww' Ew' Rw' Dw' F.
  destruct (conv2_5_ok x r w' M X0 X1 N0 N1 W0 W1 B A C m) as (m' & E & G); try assumption.
  exists m'. split; [exact E|]. apply (gains_ext _ _ _ _ _ G). intros ix Hix. rewrite Ex in Hix. destruct ix as [|e ix]; [inversion Hix|]. apply in_range_cons in Hix as [He Hix]. apply in_range_4_inv in Hix as (i & j & a & c & -> & Hi & Hj & Ha & Hc). unfold cterm4, dxterm4. cbn [nth].
  apply sum_ext. intros b Hb. rewrite <- (corr2_flip N0 N1 W0 W1 (centred X0 N0 W0) (centred X1 N1 W1) (fun k0 k1 => elem0 m r [e; k0; k1; b; c]) (fun j0 j1 => elem0 m w [j0; j1; b; a])).
  apply corr2_ext; [reflexivity|]. intros j0 j1 H0 H1. apply (F [j0; j1; a; b]). now apply in_range_4.
Qed.

(* ---- gradient of the filter *)
Lemma back1_2d_ok r x w N0 N1 X0 X1 W0 W1 (m : memR) : vwf r -> vwf x -> vwf w -> vdims r = [N0; N1] -> vdims x = [X0; X1] -> vdims w = [W0; W1] -> distinct_cells w ->
  readable m r -> readable m x -> readable m w -> disjoint_views w x -> disjoint_views w r ->
  exists m', conv2_back1 r x w m = Ok m' /\ (forall i j, 0 <= i < W0 -> 0 <= j < W1 -> elem m' w [i; j] =
    Some (corr2_dw N0 N1 X0 X1 (centred N0 X0 W0) (centred N1 X1 W1) (fun a b => elem0 m r [a; b]) (fun a b => elem0 m x [a; b]) i j)) /\ untouched m m' w.
Proof.
  intros Wr Wx Ww Er Ex Ew Dw Rr Rx Rw Dx Dr. unfold conv2_back1, back1_2lvl, ndims. rewrite Er, Ex. nd.
  destruct (conv2_2_ok (conv2_lvl (fun _ _ _ m => Ok m)) w x r W0 W1 X0 X1 N0 N1 m) as (m' & E & V & U); try assumption. exists m'. split; [exact E|]. split; [|exact U]. intros i j Hi Hj. rewrite (V i j Hi Hj). now rewrite corr2_swap, (centred_comm N0), (centred_comm N1).
Qed.
Definition dwterm3 (N0 N1 X0 X1 p0 p1 : Z) (g x : list Z -> R) (ix : list Z) : R :=
  corr2_dw N0 N1 X0 X1 p0 p1 (fun k0 k1 => g [k0; k1; nth 2 ix 0]) (fun q0 q1 => x [q0; q1; nth 3 ix 0]) (nth 0 ix 0) (nth 1 ix 0).
Definition dwterm4 (N0 N1 X0 X1 p0 p1 C : Z) (g x : list Z -> R) (ix : list Z) : R :=
  sum_to C (fun c => corr2_dw N0 N1 X0 X1 p0 p1 (fun k0 k1 => g [k0; k1; nth 2 ix 0; c]) (fun q0 q1 => x [q0; q1; nth 3 ix 0; c]) (nth 0 ix 0) (nth 1 ix 0)).
Lemma back1_3d_ok r x w N0 N1 X0 X1 W0 W1 A B (m : memR) : vwf r -> vwf x -> vwf w -> vdims r = [N0; N1; B] -> vdims x = [X0; X1; A] -> vdims w = [W0; W1; B; A] -> distinct_cells w ->
  readable m r -> readable m x -> readable m w -> disjoint_views w x -> disjoint_views w r ->
  exists m', conv2_back1 r x w m = Ok m' /\ gains m m' w (dwterm3 N0 N1 X0 X1 (centred N0 X0 W0) (centred N1 X1 W1) (elem0 m r) (elem0 m x)).
Proof.
  intros Wr Wx Ww Er Ex Ew Dw Rr Rx Rw Dx Dr. unfold conv2_back1, back1_2lvl, ndims. rewrite Er, Ex, Ew. nd.
  destruct (unsq2_3 x X0 X1 A Wx Ex) as (x' & -> & Wx' & Ex' & Fx). destruct (unsq3_3 r N0 N1 B Wr Er) as (r' & -> & Wr' & Er' & Fr). cbn [bind].
  destruct (conv2_4_ok (conv2_lvl (fun _ _ _ m => Ok m)) w x' r' W0 W1 X0 X1 N0 N1 1 B A m) as (m' & E & G); try assumption.
  - now apply (sub_readable m x' x _ Fx).
  - now apply (sub_readable m r' r _ Fr).
  - now apply (sub_disjoint w x' x _ Fx).
  - now apply (sub_disjoint w r' r _ Fr).
  - exists m'. split; [exact E|]. apply (gains_ext _ _ _ _ _ G). intros ix Hix. rewrite Ew in Hix. apply in_range_4_inv in Hix as (i & j & b & a & -> & Hi & Hj & Hb & Ha). unfold cterm4, dwterm3. cbn [nth].
    rewrite sum_1, <- (corr2_swap N0 N1 X0 X1), (centred_comm N0), (centred_comm N1). apply corr2_ext; intros k0 k1 H0 H1; apply sub_elem0.
    + apply (Fx [k0; k1; 0; a]). rewrite Ex'. apply in_range_4; lia.
    + apply (Fr [k0; k1; b; 0]). rewrite Er'. apply in_range_4; lia.
Qed.
Lemma back1_4d_gains rec r x w N0 N1 X0 X1 W0 W1 A B C (m : memR) : vwf r -> vwf x -> vwf w -> vdims r = [N0; N1; B; C] -> vdims x = [X0; X1; A; C] -> vdims w = [W0; W1; B; A] -> distinct_cells w ->
  readable m r -> readable m x -> readable m w -> disjoint_views w x -> disjoint_views w r ->
  exists m', back1_2lvl rec r x w m = Ok m' /\ gains m m' w (dwterm4 N0 N1 X0 X1 (centred N0 X0 W0) (centred N1 X1 W1) C (elem0 m r) (elem0 m x)).
Proof.
  intros Wr Wx Ww Er Ex Ew Dw Rr Rx Rw Dx Dr. unfold back1_2lvl, ndims. rewrite Er, Ex, Ew. nd.
  destruct (transp23 x X0 X1 A C Wx Ex) as (x' & -> & Wx' & Ex' & Fx). cbn [bind].
  destruct (conv2_4_ok (conv2_lvl (fun _ _ _ m => Ok m)) w x' r W0 W1 X0 X1 N0 N1 C B A m) as (m' & E & G); try assumption.
  - now apply (sub_readable m x' x _ Fx).
  - now apply (sub_disjoint w x' x _ Fx).
  - exists m'. split; [exact E|]. apply (gains_ext _ _ _ _ _ G). intros ix Hix. rewrite Ew in Hix. apply in_range_4_inv in Hix as (i & j & b & a & -> & Hi & Hj & Hb & Ha). unfold cterm4, dwterm4. cbn [nth].
    apply sum_ext. intros c Hc. rewrite <- (corr2_swap N0 N1 X0 X1), (centred_comm N0), (centred_comm N1). apply corr2_ext; [|reflexivity]. intros k0 k1 H0 H1. apply sub_elem0. apply (Fx [k0; k1; c; a]). rewrite Ex'. apply in_range_4; lia.
Qed.
Lemma back1_5d_ok r x w M N0 N1 X0 X1 W0 W1 A B C (m : memR) : vwf r -> vwf x -> vwf w -> vdims r = [M; N0; N1; B; C] -> vdims x = [M; X0; X1; A; C] -> vdims w = [W0; W1; B; A] -> distinct_cells w ->
  readable m r -> readable m x -> readable m w -> disjoint_views w x -> disjoint_views w r ->
  exists m', conv2_back1 r x w m = Ok m' /\ gains m m' w (fun ix => sum_to M (fun e => dwterm4 N0 N1 X0 X1 (centred N0 X0 W0) (centred N1 X1 W1) C (fun t => elem0 m r (e :: t)) (fun t => elem0 m x (e :: t)) ix)).
Proof.
  intros Wr Wx Ww Er Ex Ew Dw Rr Rx Rw Dx Dr. unfold conv2_back1. unfold back1_2lvl at 1, ndims. rewrite Er, Ex, Ew. nd.
  destruct (gdim2 x _ _ _ Ex) as [-> _]. cbn [bind]. unfold forZ. set (p0 := centred N0 X0 W0). set (p1 := centred N1 X1 W1).
  apply (gains_seq w (fun b m => do rr <- slice 0 b r; do xx <- slice 0 b x; back1_2lvl (fun _ _ _ m => Ok m) rr xx w m)
    (fun e => dwterm4 N0 N1 X0 X1 p0 p1 C (fun t => elem0 m r (e :: t)) (fun t => elem0 m x (e :: t))) (zrange M) m Rw).
  intros e m1 He Rw1 U1. apply in_zrange in He. destruct (slice_first r e M _ Wr Er) as (rr & Es & Wrr & Err & Ear). destruct (slice_first x e M _ Wx Ex) as (xx & Et & Wxx & Exx & Eax). rewrite Es, Et. cbn [bind].
  assert (Fr : forall ix, in_range ix (vdims rr) -> in_range (e :: ix) (vdims r) /\ vaddr rr ix = vaddr r (e :: ix)).
  { intros ix Hix. rewrite Err in Hix. split; [rewrite Er; now apply in_range_cons|]. apply Ear. now apply in_range_length. }
  assert (Fx : forall ix, in_range ix (vdims xx) -> in_range (e :: ix) (vdims x) /\ vaddr xx ix = vaddr x (e :: ix)).
  { intros ix Hix. rewrite Exx in Hix. split; [rewrite Ex; now apply in_range_cons|]. apply Eax. now apply in_range_length. }
  pose proof (keep_readable w x m m1 Dx U1 Rx) as Rx1. pose proof (keep_readable w r m m1 Dr U1 Rr) as Rr1.
  destruct (back1_4d_gains (fun _ _ _ m => Ok m) rr xx w N0 N1 X0 X1 W0 W1 A B C m1) as (m2 & E2 & G2); try assumption.
  - now apply (sub_readable m1 rr r _ Fr).
  - now apply (sub_readable m1 xx x _ Fx).
  - now apply (sub_disjoint w xx x _ Fx).
  - now apply (sub_disjoint w rr r _ Fr).
  - exists m2. split; [exact E2|]. apply (gains_ext _ _ _ _ _ G2). intros ix Hix. rewrite Ew in Hix. apply in_range_4_inv in Hix as (i & j & b & a & -> & Hi & Hj & Hb & Ha). unfold dwterm4. cbn [nth].
    apply sum_ext. intros c Hc. rewrite <- !(corr2_swap N0 N1 X0 X1). apply corr2_ext; intros k0 k1 H0 H1.
    + match goal with |- elem0 m1 xx ?ix = _ => destruct (Fx ix) as [H2 H3]; [rewrite Exx; now apply in_range_4|] end. rewrite <- (keep_elem0 w x m m1) by assumption. now apply sub_elem0.
    + match goal with |- elem0 m1 rr ?ix = _ => destruct (Fr ix) as [H2 H3]; [rewrite Err; now apply in_range_4|] end. rewrite <- (keep_elem0 w r m m1) by assumption. now apply sub_elem0.
Qed.
End S.
