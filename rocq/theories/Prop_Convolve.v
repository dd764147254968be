(* Prop_Convolve.v -- C68, C69: one-dimensional convolution and its gradients. *)
From Verif Require Import Base BaseFacts Model_Index Model_View Model_Tensor Model_Convolve Spec_Index Spec_View Spec_Tensor Spec_Convolve
  Proofs_Index Proofs_View Proofs_Tensor Proofs_Tensor2 Proofs_Tensor3 Proofs_Einsum6 Proofs_Convolve Proofs_Convolve2 Proofs_Convolve3.
Local Open Scope Z_scope.

(* ---- C68 *)
(* one channel: the result is set to the zero-padded correlation *)
Theorem C68_one_channel (R : cring) r x w N X W (m : mem (car R)) : vwf r -> vwf x -> vwf w -> vdims r = [N] -> vdims x = [X] -> vdims w = [W] -> distinct_cells r -> separate m r x w ->
  exists m', convolve r x w m = Ok m' /\ (forall i, 0 <= i < N -> elem m' r [i] = Some (corr X W (centred N X W) (fun q => elem0 m x [q]) (fun j => elem0 m w [j]) i)) /\ untouched m m' r.
Proof. intros Wr Wx Ww Er Ex Ew Dr (Rr & Rx & Rw & D1 & D2). now apply conv1_ok. Qed.
Print Assumptions C68_one_channel.
(* several channels: the correlations, summed over the input channels, are added *)
Theorem C68_channels (R : cring) r x w N X W A B (m : mem (car R)) : vwf r -> vwf x -> vwf w -> vdims r = [N; B] -> vdims x = [X; A] -> vdims w = [W; B; A] -> distinct_cells r -> separate m r x w ->
  exists m', convolve r x w m = Ok m' /\ (forall i b v, 0 <= i < N -> 0 <= b < B -> elem m r [i; b] = Some v ->
    elem m' r [i; b] = Some (cadd v (sum_to A (fun a => corr X W (centred N X W) (fun q => elem0 m x [q; a]) (fun j => elem0 m w [j; b; a]) i)))) /\ untouched m m' r.
Proof. intros Wr Wx Ww Er Ex Ew Dr (Rr & Rx & Rw & D1 & D2). now apply conv2_ok. Qed.
Print Assumptions C68_channels.
(* several channels and columns *)
Theorem C68_columns (R : cring) r x w N X W A B C (m : mem (car R)) : vwf r -> vwf x -> vwf w -> vdims r = [N; B; C] -> vdims x = [X; A; C] -> vdims w = [W; B; A] -> distinct_cells r -> separate m r x w ->
  exists m', convolve r x w m = Ok m' /\ (forall i b c v, 0 <= i < N -> 0 <= b < B -> 0 <= c < C -> elem m r [i; b; c] = Some v ->
    elem m' r [i; b; c] = Some (cadd v (sum_to A (fun a => corr X W (centred N X W) (fun q => elem0 m x [q; a; c]) (fun j => elem0 m w [j; b; a]) i)))) /\ untouched m m' r.
Proof. intros Wr Wx Ww Er Ex Ew Dr (Rr & Rx & Rw & D1 & D2). now apply conv3_ok. Qed.
Print Assumptions C68_columns.
(* convolve1d returns a new tensor *)
Theorem C68_convolve1d (R : cring) b x w X W A B C pad (m : mem (car R)) : vwf x -> vwf w -> readable m x -> readable m w -> vblk x <> b -> vblk w <> b -> 0 <= out_len X W pad ->
  let N := out_len X W pad in
  (vdims x = [X] -> vdims w = [W] -> exists m', convolve1d b x w pad m = Ok (fresh_view b [N], m') /\
     (forall i, 0 <= i < N -> elem m' (fresh_view b [N]) [i] = Some (corr X W (out_pad W pad) (fun q => elem0 m x [q]) (fun j => elem0 m w [j]) i)) /\ (forall b' a, b' <> b -> m' b' a = m b' a)) /\
  (vdims x = [X; A] -> vdims w = [W; B; A] -> exists m', convolve1d b x w pad m = Ok (fresh_view b [N; B], m') /\
     (forall i d, 0 <= i < N -> 0 <= d < B -> elem m' (fresh_view b [N; B]) [i; d] = Some (sum_to A (fun a => corr X W (out_pad W pad) (fun q => elem0 m x [q; a]) (fun j => elem0 m w [j; d; a]) i))) /\ (forall b' a, b' <> b -> m' b' a = m b' a)) /\
  (vdims x = [X; A; C] -> vdims w = [W; B; A] -> exists m', convolve1d b x w pad m = Ok (fresh_view b [N; B; C], m') /\
     (forall i d c, 0 <= i < N -> 0 <= d < B -> 0 <= c < C -> elem m' (fresh_view b [N; B; C]) [i; d; c] = Some (sum_to A (fun a => corr X W (out_pad W pad) (fun q => elem0 m x [q; a; c]) (fun j => elem0 m w [j; d; a]) i))) /\ (forall b' a, b' <> b -> m' b' a = m b' a)).
Proof.
  intros Wx Ww Rx Rw Bx Bw HN. cbn zeta. split; [|split]; intros Ex Ew.
  - now apply convolve1d_1_ok.
  - now apply convolve1d_2_ok.
  - now apply convolve1d_3_ok.
Qed.
Print Assumptions C68_convolve1d.
(* batches: nothing is computed from tensors of four or five dimensions, and convolve1d refuses four *)
Theorem C68_batched_refuted (R : cring) : 
  (forall r x w W dw (m : mem (car R)), vdims w = W :: dw -> length (vdims r) = 4%nat -> length (vdims x) = 4%nat -> convolve r x w m = Ok m) /\
  (forall r x w W dw n dr dx (m : mem (car R)), vwf r -> vwf x -> vdims w = W :: dw -> vdims r = n :: dr -> vdims x = n :: dx -> length dr = 4%nat -> length dx = 4%nat -> convolve r x w m = Ok m) /\
  (forall b x w x0 x1 x2 x3 w0 w1 w2 pad (m : mem (car R)), vdims x = [x0; x1; x2; x3] -> vdims w = [w0; w1; w2] -> nonneg [out_len x0 w0 pad; w1; x3] -> convolve1d b x w pad m = Throw).
Proof.
  assert (G : forall r x w W dw rec (m : mem (car R)), vdims w = W :: dw -> length (vdims r) = 4%nat -> length (vdims x) = 4%nat -> conv_lvl rec r x w m = Ok m).
  { intros r x w W dw rec m Ew Lr Lx. unfold conv_lvl, ndims. rewrite Lr, Lx. cbn [Z.of_nat Z.eqb Pos.eqb Pos.of_succ_nat Pos.succ assrt]. rewrite (gdim_at w 0 W) by (rewrite ?Ew; cbn; lia || reflexivity). reflexivity. }
  split; [|split].
  - intros. unfold convolve. eapply G; eassumption.
  - intros r x w W dw n dr dx m Wr Wx Ew Er Ex Lr Lx. unfold convolve. unfold conv_lvl at 1, ndims. rewrite Er, Ex. cbn [length]. rewrite Lr, Lx. cbn [Z.of_nat Z.eqb Pos.eqb Pos.of_succ_nat Pos.succ assrt].
    rewrite (gdim_at w 0 W), (gdim_at r 0 n), (gdim_at x 0 n) by (rewrite ?Ew, ?Er, ?Ex; cbn; lia || reflexivity). cbn [bind]. rewrite Z.eqb_refl. cbn [assrt]. unfold forZ.
    generalize (zrange n). intro l. induction l as [|e l IH]; [reflexivity|]. cbn [foldM].
    destruct (slice_first r e n dr Wr Er) as (rr & -> & _ & Err & _). destruct (slice_first x e n dx Wx Ex) as (xx & -> & _ & Exx & _). cbn [bind].
    rewrite (G rr xx w W dw) by (rewrite ?Err, ?Exx; assumption). exact IH.
  - intros b x w x0 x1 x2 x3 w0 w1 w2 pad m Ex Ew Hn. unfold convolve1d. rewrite (gdim_at x 0 x0), (gdim_at w 0 w0), (gdim_at x 3 x3) by (rewrite ?Ex, ?Ew; cbn; lia || reflexivity). cbn [bind]. unfold gdim, ndims. rewrite Ex, Ew.
    cbn [length Z.of_nat Z.eqb Pos.eqb Pos.of_succ_nat Pos.succ assrt Z.ltb Z.compare]. change (zget [w0; w1; w2] (3 + -2)) with (Ok w1). cbn [bind]. fold (out_len x0 w0 pad). unfold conv_result. rewrite forallb_nonneg by assumption.
    unfold convolve, conv_lvl, ndims. rewrite Ex. reflexivity.
Qed.
Print Assumptions C68_batched_refuted.
Definition zm (l : list Z) : mem Z := fun b a => if (b =? 0) && (0 <=? a) then nth_error l (Z.to_nat a) else None.
Lemma readable_by (m : mem Z) v : forallb (fun ix => match elem m v ix with Some _ => true | None => false end) (all_indices (vdims v)) = true -> readable m v.
Proof. intros H ix Hi. rewrite forallb_forall in H. apply in_all_indices in Hi. specialize (H ix Hi). now destruct (elem m v ix). Qed.
Lemma disjoint_by v w : forallb (fun ix => forallb (fun jx => match vaddr v ix, vaddr w jx with Ok a, Ok b => negb ((fst a =? fst b) && (snd a =? snd b)) | _, _ => false end) (all_indices (vdims w))) (all_indices (vdims v)) = true -> disjoint_views v w.
Proof.
  intros H ix jx Hi Hj E. rewrite forallb_forall in H. specialize (H ix (proj2 (in_all_indices _ _) Hi)). rewrite forallb_forall in H. specialize (H jx (proj2 (in_all_indices _ _) Hj)).
  rewrite E in H. destruct (vaddr w jx) as [[p q]| |]; try discriminate H. cbn in H. rewrite !Z.eqb_refl in H. discriminate H.
Qed.
Lemma distinct_fresh b d : nonneg d -> distinct_cells (fresh_view b d). Proof. intro H. apply (fresh_inside b d H). Qed.
(* x = 1,2,3,4 stored backwards, w = 1,10,100, same length result *)
Example C68_case : let x := View 0 3 [4] [-1] in let w := View 0 4 [3] [1] in let r := View 0 7 [4] [1] in let m := zm [4; 3; 2; 1; 1; 10; 100; 0; 0; 0; 0] in
  vwf x /\ vwf w /\ vwf r /\ separate m r x w /\ exists m', convolve (R := ZRing) r x w m = Ok m' /\ map (fun i => elem m' r [i]) [0; 1; 2; 3] = [Some 210; Some 321; Some 432; Some 43] /\
  map (corr (R := ZRing) 4 3 (centred 4 4 3) (fun q => elem0 (R := ZRing) m x [q]) (fun j => elem0 (R := ZRing) m w [j])) [0; 1; 2; 3] = [210; 321; 432; 43].
Proof.
  cbn zeta. do 3 (split; [split; [reflexivity|repeat constructor; lia]|]). split; [repeat split; (apply readable_by; reflexivity) || (apply disjoint_by; reflexivity)|].
  eexists. split; [vm_compute; reflexivity|]. split; vm_compute; reflexivity.
Qed.
(* two input channels, one output channel, two columns, a pad of one *)
Example C68_case2 : let x := View 0 0 [2; 2; 2] [4; 2; 1] in let w := View 0 8 [2; 1; 2] [2; 2; 1] in let m := zm [1; 2; 3; 4; 5; 6; 7; 8; 1; 10; 100; 1000] in
  out_len 2 2 1 = 3 /\ exists r m', convolve1d (R := ZRing) 1 x w 1 m = Ok (r, m') /\ vdims r = [3; 1; 2] /\ map (elem m' r) [[0; 0; 0]; [0; 0; 1]; [1; 0; 0]; [2; 0; 1]] = [Some 3100; Some 4200; Some 7531; Some 86].
Proof. cbn zeta. split; [reflexivity|]. do 2 eexists. split; [vm_compute; reflexivity|]. split; vm_compute; reflexivity. Qed.

(* ---- C69 *)
(* the two derivatives are the adjoints of the correlation *)
Theorem C69_adjoint (R : cring) N X W pad (g x w : Z -> R) :
  sum_to N (fun p => cmul (g p) (corr X W pad x w p)) = sum_to X (fun i => cmul (x i) (corr_dx N W pad g w i)) /\
  sum_to N (fun p => cmul (g p) (corr X W pad x w p)) = sum_to W (fun j => cmul (w j) (corr_dw N X pad g x j)).
Proof. split; [apply adjoint_x|apply adjoint_w]. Qed.
Print Assumptions C69_adjoint.
(* the two paddings match *)
Definition matching (N X W : Z) : Prop := 0 < W /\ (Z.Even (N - X + W - 1) \/ X + W - 1 < N \/ N + W - 1 < X).
Theorem C69_input_gradient (R : cring) r x w N X W A B C (m : mem (car R)) : vwf r -> vwf x -> vwf w -> distinct_cells x -> separate m x r w -> matching N X W ->
  (vdims r = [N] -> vdims x = [X] -> vdims w = [W] -> exists m', conv_back0 r x w m = Ok m' /\ untouched m m' x /\
     forall i, 0 <= i < X -> elem m' x [i] = Some (corr_dx N W (centred N X W) (fun p => elem0 m r [p]) (fun j => elem0 m w [j]) i)) /\
  (vdims r = [N; B] -> vdims x = [X; A] -> vdims w = [W; B; A] -> exists m', conv_back0 r x w m = Ok m' /\ untouched m m' x /\
     forall i a v, 0 <= i < X -> 0 <= a < A -> elem m x [i; a] = Some v -> elem m' x [i; a] = Some (cadd v (sum_to B (fun b => corr_dx N W (centred N X W) (fun p => elem0 m r [p; b]) (fun j => elem0 m w [j; b; a]) i)))) /\
  (vdims r = [N; B; C] -> vdims x = [X; A; C] -> vdims w = [W; B; A] -> exists m', conv_back0 r x w m = Ok m' /\ untouched m m' x /\
     forall i a c v, 0 <= i < X -> 0 <= a < A -> 0 <= c < C -> elem m x [i; a; c] = Some v -> elem m' x [i; a; c] = Some (cadd v (sum_to B (fun b => corr_dx N W (centred N X W) (fun p => elem0 m r [p; b; c]) (fun j => elem0 m w [j; b; a]) i)))).
Proof.
  intros Wr Wx Ww Dx (Rx & Rr & Rw & D1 & D2) [H0 H1]. rewrite <- (centred_sum N X W H0 H1). split; [|split]; intros Er Ex Ew.
  - destruct (back0_1_ok r x w N X W m) as (m' & E & V & U); try assumption. eauto.
  - destruct (back0_2_ok r x w N X W A B m) as (m' & E & V & U); try assumption. eauto.
  - destruct (back0_3_ok r x w N X W A B C m) as (m' & E & V & U); try assumption. eauto.
Qed.
Print Assumptions C69_input_gradient.
Section U.
Context {R : cring}.
Add Ring Rr69 : (cth R).
Lemma unit_eq : cadd (cmul (c1 : R) c0) (cadd (cmul c0 c1) c0) = cadd (cmul c1 c1) (cadd (cmul c0 c0) c0) -> (c1 : R) = c0.
Proof. intro Q. ring_simplify in Q. now symmetry. Qed.
End U.
(* otherwise the gradient is that of a correlation shifted by one *)
Theorem C69_input_gradient_shifted_refuted (R : cring) : 
  (forall r x w N X W (m : mem (car R)), vwf r -> vwf x -> vwf w -> distinct_cells x -> separate m x r w -> vdims r = [N] -> vdims x = [X] -> vdims w = [W] ->
     Z.Odd (N - X + W - 1) -> N <= X + W - 1 -> X <= N + W - 1 ->
     exists m', conv_back0 r x w m = Ok m' /\ forall i, 0 <= i < X -> elem m' x [i] = Some (corr_dx N W (centred N X W + 1) (fun p => elem0 m r [p]) (fun j => elem0 m w [j]) i)) /\
  ((c1 : R) <> c0 -> exists r x w (m : mem (car R)), vwf r /\ vwf x /\ vwf w /\ distinct_cells x /\ separate m x r w /\ vdims r = [2] /\ vdims x = [2] /\ vdims w = [2] /\
     exists m', conv_back0 r x w m = Ok m' /\ elem m' x [0] <> Some (corr_dx 2 2 (centred 2 2 2) (fun p => elem0 m r [p]) (fun j => elem0 m w [j]) 0)).
Proof.
  split.
  - intros r x w N X W m Wr Wx Ww Dx (Rx & Rr & Rw & D1 & D2) Er Ex Ew H1 H2 H3. destruct (back0_1_ok r x w N X W m) as (m' & E & V & U); try assumption. exists m'. split; [exact E|]. intros i Hi. rewrite (V i Hi). now rewrite (centred_short N X W).
  - intro H. set (m := fun b a => if (b =? 0) && (0 <=? a) then nth_error [c0; c0; c1; c0; c1; c0] (Z.to_nat a) else None : option R).
    exists (View 0 2 [2] [1]), (View 0 0 [2] [1]), (View 0 4 [2] [1]), m.
    assert (Wf : forall o, vwf (View 0 o [2] [1])) by (intro; split; [reflexivity|repeat constructor; lia]). do 3 (split; [apply Wf|]).
    assert (Dc : distinct_cells (View 0 0 [2] [1])) by (apply (distinct_fresh 0 [2]); repeat constructor; lia). split; [exact Dc|].
    assert (Rd : forall o, o = 0 \/ o = 2 \/ o = 4 -> readable m (View 0 o [2] [1])).
    { intros o Ho ix Hix. apply in_range_1_inv in Hix as (i & -> & Hi). assert (i = 0 \/ i = 1) as [-> | ->] by lia; destruct Ho as [->|[->| ->]]; discriminate. }
    assert (Sp : separate m (View 0 0 [2] [1]) (View 0 2 [2] [1]) (View 0 4 [2] [1])) by (repeat split; auto; apply disjoint_by; reflexivity). split; [exact Sp|]. do 3 (split; [reflexivity|]).
    destruct Sp as (R1 & R2 & R3 & D1 & D2). destruct (back0_1_ok (View 0 2 [2] [1]) (View 0 0 [2] [1]) (View 0 4 [2] [1]) 2 2 2 m) as (m' & E & V & U); auto. exists m'. split; [exact E|]. rewrite (V 0 ltac:(lia)).
    change (2 - 1 - centred 2 2 2) with 1. change (centred 2 2 2) with 0. unfold corr_dx, sum_to, zpad. change (zrange 2) with [0; 1]. cbn. intro Q. injection Q as Q. apply H. rewrite !rsum_cons, !rsum_nil in Q. clear -Q.
    apply unit_eq. exact Q.
Qed.
Print Assumptions C69_input_gradient_shifted_refuted.
Theorem C69_filter_gradient (R : cring) r x w N X W A B C M (m : mem (car R)) : vwf r -> vwf x -> vwf w -> distinct_cells w -> separate m w x r ->
  (vdims r = [N] -> vdims x = [X] -> vdims w = [W] -> exists m', conv_back1 r x w m = Ok m' /\ untouched m m' w /\
     forall j, 0 <= j < W -> elem m' w [j] = Some (corr_dw N X (centred N X W) (fun p => elem0 m r [p]) (fun q => elem0 m x [q]) j)) /\
  (vdims r = [N; B] -> vdims x = [X; A] -> vdims w = [W; B; A] -> exists m', conv_back1 r x w m = Ok m' /\ untouched m m' w /\
     forall j b a v, 0 <= j < W -> 0 <= b < B -> 0 <= a < A -> elem m w [j; b; a] = Some v -> elem m' w [j; b; a] = Some (cadd v (corr_dw N X (centred N X W) (fun p => elem0 m r [p; b]) (fun q => elem0 m x [q; a]) j))) /\
  (vdims r = [N; B; C] -> vdims x = [X; A; C] -> vdims w = [W; B; A] -> exists m', conv_back1 r x w m = Ok m' /\ untouched m m' w /\
     forall j b a v, 0 <= j < W -> 0 <= b < B -> 0 <= a < A -> elem m w [j; b; a] = Some v -> elem m' w [j; b; a] = Some (cadd v (sum_to C (fun c => corr_dw N X (centred N X W) (fun p => elem0 m r [p; b; c]) (fun q => elem0 m x [q; a; c]) j)))) /\
  (vdims r = [M; N; B; C] -> vdims x = [M; X; A; C] -> vdims w = [W; B; A] -> exists m', conv_back1 r x w m = Ok m' /\ untouched m m' w /\
     forall j b a v, 0 <= j < W -> 0 <= b < B -> 0 <= a < A -> elem m w [j; b; a] = Some v -> elem m' w [j; b; a] = Some (cadd v (sum_to M (fun e => sum_to C (fun c => corr_dw N X (centred N X W) (fun p => elem0 m r [e; p; b; c]) (fun q => elem0 m x [e; q; a; c]) j))))).
Proof.
  intros Wr Wx Ww Dw (Rw & Rx & Rr & D1 & D2). split; [|split; [|split]]; intros Er Ex Ew.
  - destruct (back1_1_ok r x w N X W m) as (m' & E & V & U); try assumption. eauto.
  - destruct (back1_2_ok r x w N X W A B m) as (m' & E & V & U); try assumption. eauto.
  - destruct (back1_3_ok r x w N X W A B C m) as (m' & E & V & U); try assumption. eauto.
  - destruct (back1_4_ok r x w M N X W A B C m) as (m' & E & V & U); try assumption. eauto.
Qed.
Print Assumptions C69_filter_gradient.
Example C69_case : let x := View 0 0 [4] [1] in let w := View 0 4 [3] [1] in let r := View 0 7 [4] [1] in let m := zm [9; 9; 9; 9; 1; 10; 100; 1; 2; 3; 4] in let m2 := zm [1; 2; 3; 4; 9; 9; 9; 1; 2; 3; 4] in
  matching 4 4 3 /\ separate m x r w /\ separate m2 w x r /\
  (exists m', conv_back0 (R := ZRing) r x w m = Ok m' /\ map (fun i => elem m' x [i]) [0; 1; 2; 3] = [Some 12; Some 123; Some 234; Some 340]) /\
  exists m', conv_back1 (R := ZRing) r x w m2 = Ok m' /\ map (fun i => elem m' w [i]) [0; 1; 2] = [Some 20; Some 30; Some 20].
Proof.
  cbn zeta. split; [split; [lia|left; now exists 1]|]. split; [repeat split; (apply readable_by; reflexivity) || (apply disjoint_by; reflexivity)|].
  split; [repeat split; (apply readable_by; reflexivity) || (apply disjoint_by; reflexivity)|].
  split; eexists; (split; [vm_compute; reflexivity|]); vm_compute; reflexivity.
Qed.
