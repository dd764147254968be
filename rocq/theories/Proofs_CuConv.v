(* Proofs_CuConv.v -- convolution of fixed-rank views on a device. *)
From Verif Require Import Base BaseFacts Model_Index Model_View Model_Tensor Model_Ops Model_RView Model_Einsum Model_Convolve Model_Cuda Model_CuConv Spec_Index Spec_View Spec_Tensor Spec_Convolve Spec_Convolve2D Spec_RConv Spec_Cuda
  Proofs_Axes Proofs_Index Proofs_View Proofs_Tensor Proofs_Cuda Proofs_Convolve Proofs_Convolve2 Proofs_Convolve2D Spec_RView Proofs_RConv2 Proofs_RConv4.
Local Open Scope Z_scope.

Section S.
Context {R : cring}.
Add Ring Rr : (cth R).
Notation memR := (mem (car R)).
Implicit Types m : memR.

(* ---- the statements ---- *)
Lemma load_elem0 m v ix : vwf v -> readable m v -> in_range ix (vdims v) -> at_ m (cell v ix) = Some (elem0 m v ix).
Proof. intros [W _] Rv I. unfold elem0. pose proof (Rv ix I) as N. rewrite (elem_cell m v ix (eq_sym (eq_sym W)) I) in *. now destruct (at_ m (cell v ix)). Qed.
Lemma dots_terms {K} m (x w : view) (xi wi : K -> list Z) L t : vwf x -> vwf w -> readable m x -> readable m w -> (forall k, In k L -> in_range (xi k) (vdims x) /\ in_range (wi k) (vdims w)) ->
  exists us, loads m (flat_map (fun k => [cell x (xi k); cell w (wi k)]) L) = Ok us /\ dots t us = cadd t (rsum (map (fun k => cmul (elem0 m x (xi k)) (elem0 m w (wi k))) L)).
Proof.
  intros Wx Ww Rx Rw. revert t. induction L as [|k L IH]; intros t H.
  - exists []. split; [reflexivity|]. cbn [dots map]. rewrite rsum_nil. ring.
  - destruct (H k (or_introl eq_refl)) as [A B]. destruct (IH (cadd t (cmul (elem0 m x (xi k)) (elem0 m w (wi k)))) (fun k' I => H k' (or_intror I))) as (us & E & D).
    exists (elem0 m x (xi k) :: elem0 m w (wi k) :: us). split.
    + cbn [flat_map app]. unfold loads in *. cbn [mapM]. rewrite (loadA_some _ _ _ (load_elem0 m x _ Wx Rx A)), (loadA_some _ _ _ (load_elem0 m w _ Ww Rw B)). cbn [bind]. now rewrite E.
    + cbn [dots map]. rewrite D, rsum_cons. ring.
Qed.
Lemma conv_gains {K} r x w m (L : list Z -> list K) (xi wi : list Z -> K -> list Z) (G : list Z -> R) order : operands r [x; w] m ->
  (forall ix k, in_range ix (vdims r) -> In k (L ix) -> in_range (xi ix k) (vdims x) /\ in_range (wi ix k) (vdims w)) ->
  (forall ix, in_range ix (vdims r) -> rsum (map (fun k => cmul (elem0 m x (xi ix k)) (elem0 m w (wi ix k))) (L ix)) = G ix) ->
  Permutation order (map (fun ix => (cell r ix, flat_map (fun k => [cell x (xi ix k); cell w (wi ix k)]) (L ix))) (all_indices (vdims r))) ->
  exists m', cu_exec f_conv [order] m = Ok m' /\ gains r G m m'.
Proof.
  intros (Wr & Dr & Rr_ & F) H S P. inversion F as [|? ? (Wx & Rx & Dx) F2]; subst. inversion F2 as [|? ? (Ww & Rw & Dw) _]; subst. clear F F2.
  set (E := fun ix => (cell r ix, flat_map (fun k => [cell x (xi ix k); cell w (wi ix k)]) (L ix))) in *.
  assert (Lr : length (vstr r) = length (vdims r)) by apply Wr.
  assert (Cd : forall ix jx, in_range ix (vdims r) -> in_range jx (vdims r) -> cell r ix = cell r jx -> ix = jx).
  { intros ix jx A B C. apply Dr; try assumption. now rewrite !vaddr_cell, C. }
  assert (Src : forall ix p, in_range ix (vdims r) -> In p (snd (E ix)) -> (exists k, In k (L ix) /\ (p = cell x (xi ix k) \/ p = cell w (wi ix k)))).
  { intros ix p _ I. cbn [E snd] in I. apply in_flat_map in I. destruct I as (k & Ik & [<-|[<-|[]]]); exists k; auto. }
  destruct (run_perm f_conv order (map E (all_indices (vdims r))) m P) as (m' & Er & Re).
  - rewrite map_map. cbn [E fst]. apply NoDup_map_in; [apply all_indices_nodup|]. intros ix jx A B. apply in_all_indices in A. apply in_all_indices in B. now apply Cd.
  - intros e I. apply in_map_iff in I. destruct I as (ix & <- & I). apply in_all_indices in I. split.
    + cbn [E fst]. rewrite <- elem_cell by assumption. now apply Rr_.
    + apply Forall_forall. intros p Ip. destruct (Src ix p I Ip) as (k & Ik & [->| ->]); destruct (H ix k I Ik) as [A B]; [rewrite (load_elem0 m x) by assumption|rewrite (load_elem0 m w) by assumption]; discriminate.
  - intros e e' I I' J. apply in_map_iff in I. destruct I as (ix & <- & I). apply in_all_indices in I. apply in_map_iff in I'. destruct I' as (jx & <- & I'). apply in_all_indices in I'.
    exfalso. destruct (Src jx _ I' J) as (k & Ik & Q). destruct (H jx k I' Ik) as [A B]. cbn [E fst] in Q. destruct Q as [Q|Q].
    + apply (Dx ix (xi jx k) I A). rewrite !vaddr_cell by (assumption || apply Wx). now rewrite Q.
    + apply (Dw ix (wi jx k) I B). rewrite !vaddr_cell by (assumption || apply Ww). now rewrite Q.
  - exists m'. rewrite exec_run. cbn [concat]. rewrite app_nil_r. split; [exact Er|]. destruct Re as [R1 R2]. split.
    + intros ix v I Ev. destruct (R1 (E ix)) as (v' & us & A & B & C); [apply in_map; now apply in_all_indices|]. cbn [E fst snd] in A, B, C.
      rewrite elem_cell in Ev |- * by assumption. rewrite A in Ev. injection Ev as ->. rewrite C. destruct (dots_terms m x w (xi ix) (wi ix) (L ix) c0 Wx Ww Rx Rw (fun k Ik => H ix k I Ik)) as (us' & B' & D).
      rewrite B in B'. injection B' as <-. unfold f_conv. rewrite D, (S ix I). f_equal. ring.
    + intros b a N. apply (R2 (b, a)). rewrite map_map. cbn [E fst]. intro I. apply in_map_iff in I. destruct I as (ix & Q & I). apply in_all_indices in I. apply (N ix I). rewrite vaddr_cell by assumption. now rewrite Q.
Qed.

(* ---- the loops ---- *)
Lemma sum_loop2 (f : Z * Z * Z -> R) J0 J1 n : rsum (map f (loop2 J0 J1 n)) = rsum (map (fun j0 => rsum (map (fun j1 => sum_to n (fun a => f (j0, j1, a))) J1)) J0).
Proof. unfold loop2. rewrite rsum_flat_map. apply rsum_ext. intros j0 _. rewrite rsum_flat_map. apply rsum_ext. intros j1 _. now rewrite map_map. Qed.
Lemma sum_loop3 (f : Z * Z * Z * Z -> R) J0 J1 J2 n : rsum (map f (loop3 J0 J1 J2 n)) = rsum (map (fun j0 => rsum (map (fun j1 => rsum (map (fun j2 => sum_to n (fun a => f (j0, j1, j2, a))) J2)) J1)) J0).
Proof. unfold loop3. rewrite rsum_flat_map. apply rsum_ext. intros j0 _. rewrite rsum_flat_map. apply rsum_ext. intros j1 _. rewrite rsum_flat_map. apply rsum_ext. intros j2 _. now rewrite map_map. Qed.
Lemma in_loop2 j0 j1 a J0 J1 n : In (j0, j1, a) (loop2 J0 J1 n) -> In j0 J0 /\ In j1 J1 /\ 0 <= a < n.
Proof.
  unfold loop2. intro I. apply in_flat_map in I. destruct I as (k0 & A & I). apply in_flat_map in I. destruct I as (k1 & B & I). apply in_map_iff in I. destruct I as (k & E & C). injection E as <- <- <-. apply in_zrange in C. auto.
Qed.
Lemma in_loop3 j0 j1 j2 a J0 J1 J2 n : In (j0, j1, j2, a) (loop3 J0 J1 J2 n) -> In j0 J0 /\ In j1 J1 /\ In j2 J2 /\ 0 <= a < n.
Proof.
  unfold loop3. intro I. apply in_flat_map in I. destruct I as (k0 & A & I). apply in_flat_map in I. destruct I as (k1 & B & I). apply in_flat_map in I. destruct I as (k2 & D & I). apply in_map_iff in I. destruct I as (k & E & C). injection E as <- <- <- <-. apply in_zrange in C. auto.
Qed.
End S.
Lemma jrange_window b p i X W : (b = false -> p = 0 /\ 0 <= i /\ i + W <= X) -> jrange b p i X W = wlist p i X W.
Proof.
  intro H. unfold jrange. destruct b; [reflexivity|]. destruct (H eq_refl) as (-> & A & B). unfold wlist, jlo, jhi. replace (Z.max 0 (0 - i)) with 0 by lia. replace (Z.min W (X - i + 0)) with W by lia. rewrite Z.sub_0_r.
  rewrite <- (map_id (zrange W)) at 1. apply map_ext. intro j. lia.
Qed.

(* ---- the launches ---- *)
Lemma launch_all g b co k dims (E : list Z -> addr * list addr) : (forall t, k t = E (co t)) -> map co (cu_threads g b) = all_indices dims -> (forall ix, in_range ix dims -> cu_ok g b = true) ->
  launch g b k = map E (all_indices dims).
Proof.
  intros K T O. unfold launch. destruct (cu_ok g b) eqn:Eo.
  - rewrite <- T, map_map. apply map_ext. exact K.
  - destruct (all_indices dims) as [|ix l] eqn:Ea; [reflexivity|]. specialize (O ix). assert (I : In ix (all_indices dims)) by (rewrite Ea; now left). apply in_all_indices in I. specialize (O I). congruence.
Qed.
Lemma fuse_front a b ds : 0 <= a -> 0 <= b -> map (fun c => match c with k :: c => k / b :: k mod b :: c | [] => [] end) (all_indices (a * b :: ds)) = all_indices (a :: b :: ds).
Proof.
  intros A B. change (all_indices (a * b :: ds)) with (flat_map (fun i => map (cons i) (all_indices ds)) (zrange (a * b))). rewrite zrange_mul by assumption.
  change (all_indices (a :: b :: ds)) with (flat_map (fun i => map (cons i) (flat_map (fun j => map (cons j) (all_indices ds)) (zrange b))) (zrange a)).
  rewrite map_flat_map. generalize (zrange a) as L. induction L as [|i L IH]; [reflexivity|]. cbn [flat_map]. rewrite flat_map_app, IH. f_equal. clear IH L.
  rewrite map_flat_map. assert (H : forall j, In j (zrange b) -> 0 <= j < b) by (intros j I; now apply in_zrange). revert H. generalize (zrange b) as L. induction L as [|j L IH]; intro H; [reflexivity|]. cbn [map flat_map]. rewrite IH by (intros; apply H; now right). f_equal.
  rewrite !map_map. apply map_ext. intro c. specialize (H j (or_introl eq_refl)). rewrite (Z.mul_comm i b). f_equal; [|f_equal].
  - rewrite Z.mul_comm, Z.div_add_l by lia. rewrite Z.div_small by lia. lia.
  - rewrite Z.mul_comm, Z.add_comm, Z.mod_add by lia. apply Z.mod_small. lia.
Qed.
Lemma fuse_second n a b ds : 0 <= a -> 0 <= b -> map (fun c => match c with i :: k :: c => i :: k / b :: k mod b :: c | _ => [] end) (all_indices (n :: a * b :: ds)) = all_indices (n :: a :: b :: ds).
Proof.
  intros A B. change (all_indices (n :: a :: b :: ds)) with (flat_map (fun i => map (cons i) (all_indices (a :: b :: ds))) (zrange n)). rewrite <- (fuse_front a b ds A B).
  change (all_indices (n :: a * b :: ds)) with (flat_map (fun i => map (cons i) (all_indices (a * b :: ds))) (zrange n)). rewrite map_flat_map. apply flat_map_ext. intro i. rewrite !map_map. apply map_ext_in. intros c I.
  apply in_all_indices in I. rng. reflexivity.
Qed.
Definition c2_5 (n : Z) (t : thread) : list Z := [bx t; by_ t / n; by_ t mod n; bz t; tx t].
Lemma th2_5 a b c d e : 0 <= b -> 0 <= c -> map (c2_5 c) (cu_threads (a, b * c, d) (e, 1, 1)) = all_indices [a; b; c; d; e].
Proof. intros B C. rewrite <- (fuse_second a b c [d; e] B C), <- th_bbbt, map_map. apply map_ext. reflexivity. Qed.
Definition k_bbbtt (t : thread) : list Z := [bx t; by_ t; bz t; tx t; ty t].
Lemma th_bbbtt a b c d e : map k_bbbtt (cu_threads (a, b, c) (d, e, 1)) = all_indices [a; b; c; d; e].
Proof.
  unfold cu_threads. change (zrange 1) with [0]. cbn [flat_map map app all_indices].
  do 4 (rewrite !map_flat_map; apply flat_map_ext; intro). rewrite !flat_map_single, !map_map. reflexivity.
Qed.
Definition c3_6 (n : Z) (t : thread) : list Z := [bx t / n; bx t mod n; by_ t; bz t; tx t; ty t].
Lemma th3_6 a b c d e f : 0 <= a -> 0 <= b -> map (c3_6 b) (cu_threads (a * b, c, d) (e, f, 1)) = all_indices [a; b; c; d; e; f].
Proof. intros A B. rewrite <- (fuse_front a b [c; d; e; f] A B), <- th_bbbtt, map_map. apply map_ext. reflexivity. Qed.

Lemma idle {R : cring} g b k (order : list (addr * list addr)) (m : mem (car R)) : Permutation order (launch g b k) -> cu_ok g b = false -> cu_exec f_conv [order] m = Ok m.
Proof. unfold launch. intros P E. rewrite E in P. apply Permutation_sym, Permutation_nil in P. now subst. Qed.
Lemma ok_false gx gy gz nx ny nz : ~ (1 <= gx <= 2147483647 /\ 1 <= gy <= 65535 /\ 1 <= gz <= 65535 /\ 1 <= nx <= 1024 /\ 1 <= ny <= 1024 /\ 1 <= nz <= 64 /\ nx * ny * nz <= 1024) -> cu_ok (gx, gy, gz) (nx, ny, nz) = false.
Proof. intro H. destruct (cu_ok _ _) eqn:E; [|reflexivity]. apply ok_inv in E. contradiction. Qed.

Section T.
Context {R : cring}.
Add Ring Rr2 : (cth R).
Notation memR := (mem (car R)).
Implicit Types m : memR.
Ltac sides v D := assert (forall k, nd v k = nth k (vdims v) 0) by reflexivity; unfold nd in *; rewrite D in *; cbn [nth] in *.
Ltac inr := unfold in_range; repeat (apply Forall2_cons; [lia|]); apply Forall2_nil.
Ltac eqs := rewrite ?Z.eqb_refl; cbn [assrt].
Lemma wf_nonneg v : vwf v -> Forall (fun n => 0 <= n) (vdims v).
Proof. intros [_ N]. exact N. Qed.

Lemma conv2_4 r x w m N0 N1 O X0 X1 A C J0 J1 : operands r [x; w] m -> vdims r = [N0; N1; O; C] -> vdims x = [X0; X1; A; C] -> vdims w = [O; J0; J1; A] ->
  N0 <= 2147483647 -> N1 <= 65535 -> O <= 65535 -> C <= 1024 -> (centred N0 X0 J0 = 0 -> centred N1 X1 J1 = 0 -> N0 + J0 - 1 <= X0 /\ N1 + J1 - 1 <= X1) ->
  exists plan, rconv2_4_cu r x w = Ok plan /\ forall order, Permutation order plan -> exists m', cu_exec f_conv [order] m = Ok m' /\
    gains r (fun ix => bank2 X0 X1 J0 J1 A (centred N0 X0 J0) (centred N1 X1 J1) (fun q0 q1 a => elem0 m x [q0; q1; a; nth 3 ix 0]) (fun j0 j1 a => elem0 m w [nth 2 ix 0; j0; j1; a]) (nth 0 ix 0) (nth 1 ix 0)) m m'.
Proof.
  intros Op Dr Dx Dw B0 B1 B2 B3 Fit. unfold rconv2_4_cu, nd. rewrite Dr, Dx, Dw. cbn [nth]. eqs. cbv zeta. change (pad0 N0 X0 J0) with (centred N0 X0 J0). change (pad0 N1 X1 J1) with (centred N1 X1 J1).
  set (p0 := centred N0 X0 J0) in *. set (p1 := centred N1 X1 J1) in *. set (pd := negb ((p0 =? 0) && (p1 =? 0))).
  assert (Hw : forall ix, in_range ix [N0; N1; O; C] -> jrange pd p0 (nth 0 ix 0) X0 J0 = wlist p0 (nth 0 ix 0) X0 J0 /\ jrange pd p1 (nth 1 ix 0) X1 J1 = wlist p1 (nth 1 ix 0) X1 J1).
  { intros ix I. rng. cbn [nth]. split; apply jrange_window; intro E; unfold pd in E; lia. }
  eexists. split; [reflexivity|]. intros order P. rewrite (launch_all _ _ k_bbbt _ [N0; N1; O; C] (fun ix => (cell r ix, flat_map (fun e => [cell x [nth 0 ix 0 + fst (fst e) - p0; nth 1 ix 0 + snd (fst e) - p1; snd e; nth 3 ix 0]; cell w [nth 2 ix 0; fst (fst e); snd (fst e); snd e]])
      (loop2 (jrange pd p0 (nth 0 ix 0) X0 J0) (jrange pd p1 (nth 1 ix 0) X1 J1) A)))) in P.
  - rewrite <- Dr in P. eapply conv_gains in P; [exact P|exact Op| |].
    + intros ix [[j0 j1] a] I K. rewrite Dr in I. destruct (Hw ix I) as [-> ->] in K. rng. cbn [nth fst snd] in *. apply in_loop2 in K. destruct K as (K0 & K1 & Ka). apply in_wlist in K0. apply in_wlist in K1. rewrite Dx, Dw. split; inr.
    + intros ix I. rewrite Dr in I. destruct (Hw ix I) as [-> ->]. rewrite sum_loop2. cbn [fst snd]. rewrite <- bank2_loops. apply rsum_ext. intros j0 _. apply rsum_ext. intros j1 _. apply rsum_ext. intros a _. ring.
  - intro t. unfold k2_4, nd. rewrite Dx, Dw. cbn [nth k_bbbt]. f_equal. rewrite !flat_map_concat_map. f_equal. apply map_ext. intros [[j0 j1] a]. reflexivity.
  - apply th_bbbt.
  - intros ix I. rng. apply ok_true; lia.
Qed.
Lemma conv2_5 r x w m B N0 N1 O X0 X1 A C J0 J1 : operands r [x; w] m -> vdims r = [B; N0; N1; O; C] -> vdims x = [B; X0; X1; A; C] -> vdims w = [O; J0; J1; A] ->
  B <= 2147483647 -> N0 * N1 <= 65535 -> O <= 65535 -> C <= 1024 -> (centred N0 X0 J0 = 0 -> centred N1 X1 J1 = 0 -> N0 + J0 - 1 <= X0 /\ N1 + J1 - 1 <= X1) ->
  exists plan, rconv2_5_cu r x w = Ok plan /\ forall order, Permutation order plan -> exists m', cu_exec f_conv [order] m = Ok m' /\
    gains r (fun ix => bank2 X0 X1 J0 J1 A (centred N0 X0 J0) (centred N1 X1 J1) (fun q0 q1 a => elem0 m x [nth 0 ix 0; q0; q1; a; nth 4 ix 0]) (fun j0 j1 a => elem0 m w [nth 3 ix 0; j0; j1; a]) (nth 1 ix 0) (nth 2 ix 0)) m m'.
Proof.
  intros Op Dr Dx Dw B0 B1 B2 B3 Fit. unfold rconv2_5_cu, nd. rewrite Dr, Dx, Dw. cbn [nth]. eqs. cbv zeta. change (pad0 N0 X0 J0) with (centred N0 X0 J0). change (pad0 N1 X1 J1) with (centred N1 X1 J1).
  set (p0 := centred N0 X0 J0) in *. set (p1 := centred N1 X1 J1) in *. set (pd := negb ((p0 =? 0) && (p1 =? 0))).
  assert (Hw : forall ix, in_range ix [B; N0; N1; O; C] -> jrange pd p0 (nth 1 ix 0) X0 J0 = wlist p0 (nth 1 ix 0) X0 J0 /\ jrange pd p1 (nth 2 ix 0) X1 J1 = wlist p1 (nth 2 ix 0) X1 J1).
  { intros ix I. rng. cbn [nth]. split; apply jrange_window; intro E; unfold pd in E; lia. }
  pose proof (wf_nonneg r (proj1 Op)) as N. rewrite Dr in N. inversion N as [|? ? _ N']; subst. inversion N' as [|? ? P0 N'']; subst. inversion N'' as [|? ? P1 _]; subst. clear N N' N''.
  eexists. split; [reflexivity|]. intros order P. rewrite (launch_all _ _ (c2_5 N1) _ [B; N0; N1; O; C] (fun ix => (cell r ix, flat_map (fun e => [cell x [nth 0 ix 0; nth 1 ix 0 + fst (fst e) - p0; nth 2 ix 0 + snd (fst e) - p1; snd e; nth 4 ix 0]; cell w [nth 3 ix 0; fst (fst e); snd (fst e); snd e]])
      (loop2 (jrange pd p0 (nth 1 ix 0) X0 J0) (jrange pd p1 (nth 2 ix 0) X1 J1) A)))) in P.
  - rewrite <- Dr in P. eapply conv_gains in P; [exact P|exact Op| |].
    + intros ix [[j0 j1] a] I K. rewrite Dr in I. destruct (Hw ix I) as [-> ->] in K. rng. cbn [nth fst snd] in *. apply in_loop2 in K. destruct K as (K0 & K1 & Ka). apply in_wlist in K0. apply in_wlist in K1. rewrite Dx, Dw. split; inr.
    + intros ix I. rewrite Dr in I. destruct (Hw ix I) as [-> ->]. rewrite sum_loop2. cbn [fst snd]. rewrite <- bank2_loops. apply rsum_ext. intros j0 _. apply rsum_ext. intros j1 _. apply rsum_ext. intros a _. ring.
  - intro t. unfold k2_5, nd. rewrite Dr, Dx, Dw. cbn [nth c2_5]. f_equal. rewrite !flat_map_concat_map. f_equal. apply map_ext. intros [[j0 j1] a]. reflexivity.
  - now apply th2_5.
  - intros ix I. rng. apply ok_true; try lia. nia.
Qed.
Lemma all_zero a b c : negb ((a =? 0) && (b =? 0) && (c =? 0)) = false -> a = 0 /\ b = 0 /\ c = 0.
Proof. lia. Qed.
Lemma conv3_4 r x w m N0 N1 N2 O X0 X1 X2 A J0 J1 J2 : operands r [x; w] m -> vdims r = [N0; N1; N2; O] -> vdims x = [X0; X1; X2; A] -> vdims w = [O; J0; J1; J2; A] ->
  N0 <= 2147483647 -> N1 <= 65535 -> N2 <= 65535 -> O <= 1024 -> (centred N0 X0 J0 = 0 -> centred N1 X1 J1 = 0 -> centred N2 X2 J2 = 0 -> N0 + J0 - 1 <= X0 /\ N1 + J1 - 1 <= X1 /\ N2 + J2 - 1 <= X2) ->
  exists plan, rconv3_4_cu r x w = Ok plan /\ forall order, Permutation order plan -> exists m', cu_exec f_conv [order] m = Ok m' /\
    gains r (fun ix => bank3 X0 X1 X2 J0 J1 J2 A (centred N0 X0 J0) (centred N1 X1 J1) (centred N2 X2 J2) (fun q0 q1 q2 a => elem0 m x [q0; q1; q2; a]) (fun j0 j1 j2 a => elem0 m w [nth 3 ix 0; j0; j1; j2; a]) (nth 0 ix 0) (nth 1 ix 0) (nth 2 ix 0)) m m'.
Proof.
  intros Op Dr Dx Dw B0 B1 B2 B3 Fit. unfold rconv3_4_cu, nd. rewrite Dr, Dx, Dw. cbn [nth]. eqs. cbv zeta. change (pad0 N0 X0 J0) with (centred N0 X0 J0). change (pad0 N1 X1 J1) with (centred N1 X1 J1). change (pad0 N2 X2 J2) with (centred N2 X2 J2).
  set (p0 := centred N0 X0 J0) in *. set (p1 := centred N1 X1 J1) in *. set (p2 := centred N2 X2 J2) in *. set (pd := negb ((p0 =? 0) && (p1 =? 0) && (p2 =? 0))).
  assert (Hw : forall ix, in_range ix [N0; N1; N2; O] -> jrange pd p0 (nth 0 ix 0) X0 J0 = wlist p0 (nth 0 ix 0) X0 J0 /\ jrange pd p1 (nth 1 ix 0) X1 J1 = wlist p1 (nth 1 ix 0) X1 J1 /\ jrange pd p2 (nth 2 ix 0) X2 J2 = wlist p2 (nth 2 ix 0) X2 J2).
  { intros ix I. rng. cbn [nth]. repeat split; apply jrange_window; intro E; apply all_zero in E; lia. }
  eexists. split; [reflexivity|]. intros order P. rewrite (launch_all _ _ k_bbbt _ [N0; N1; N2; O] (fun ix => (cell r ix, flat_map (fun e => [cell x [nth 0 ix 0 + fst (fst (fst e)) - p0; nth 1 ix 0 + snd (fst (fst e)) - p1; nth 2 ix 0 + snd (fst e) - p2; snd e];
        cell w [nth 3 ix 0; fst (fst (fst e)); snd (fst (fst e)); snd (fst e); snd e]])
      (loop3 (jrange pd p0 (nth 0 ix 0) X0 J0) (jrange pd p1 (nth 1 ix 0) X1 J1) (jrange pd p2 (nth 2 ix 0) X2 J2) A)))) in P.
  - rewrite <- Dr in P. eapply conv_gains in P; [exact P|exact Op| |].
    + intros ix [[[j0 j1] j2] a] I K. rewrite Dr in I. destruct (Hw ix I) as (-> & -> & ->) in K. rng. cbn [nth fst snd] in *. apply in_loop3 in K. destruct K as (K0 & K1 & K2 & Ka). apply in_wlist in K0. apply in_wlist in K1. apply in_wlist in K2. rewrite Dx, Dw. split; inr.
    + intros ix I. rewrite Dr in I. destruct (Hw ix I) as (-> & -> & ->). rewrite sum_loop3. cbn [fst snd]. rewrite <- bank3_loops. apply rsum_ext. intros j0 _. apply rsum_ext. intros j1 _. apply rsum_ext. intros j2 _. apply rsum_ext. intros a _. ring.
  - intro t. unfold k3_4, nd. rewrite Dx, Dw. cbn [nth k_bbbt]. f_equal. rewrite !flat_map_concat_map. f_equal. apply map_ext. intros [[[j0 j1] j2] a]. reflexivity.
  - apply th_bbbt.
  - intros ix I. rng. apply ok_true; lia.
Qed.
Lemma conv3_5 r x w m N0 N1 N2 O X0 X1 X2 A C J0 J1 J2 : operands r [x; w] m -> vdims r = [N0; N1; N2; O; C] -> vdims x = [X0; X1; X2; A; C] -> vdims w = [O; J0; J1; J2; A] ->
  N0 <= 2147483647 -> N1 <= 65535 -> N2 <= 65535 -> O * C <= 1024 -> (centred N0 X0 J0 = 0 -> centred N1 X1 J1 = 0 -> centred N2 X2 J2 = 0 -> N0 + J0 - 1 <= X0 /\ N1 + J1 - 1 <= X1 /\ N2 + J2 - 1 <= X2) ->
  exists plan, rconv3_5_cu r x w = Ok plan /\ forall order, Permutation order plan -> exists m', cu_exec f_conv [order] m = Ok m' /\
    gains r (fun ix => bank3 X0 X1 X2 J0 J1 J2 A (centred N0 X0 J0) (centred N1 X1 J1) (centred N2 X2 J2) (fun q0 q1 q2 a => elem0 m x [q0; q1; q2; a; nth 4 ix 0]) (fun j0 j1 j2 a => elem0 m w [nth 3 ix 0; j0; j1; j2; a]) (nth 0 ix 0) (nth 1 ix 0) (nth 2 ix 0)) m m'.
Proof.
  intros Op Dr Dx Dw B0 B1 B2 B3 Fit. unfold rconv3_5_cu, nd. rewrite Dr, Dx, Dw. cbn [nth]. eqs. cbv zeta. change (pad0 N0 X0 J0) with (centred N0 X0 J0). change (pad0 N1 X1 J1) with (centred N1 X1 J1). change (pad0 N2 X2 J2) with (centred N2 X2 J2).
  replace (O * C <=? 1024) with true by lia.
  set (p0 := centred N0 X0 J0) in *. set (p1 := centred N1 X1 J1) in *. set (p2 := centred N2 X2 J2) in *. set (pd := negb ((p0 =? 0) && (p1 =? 0) && (p2 =? 0))).
  assert (Hw : forall ix, in_range ix [N0; N1; N2; O; C] -> jrange pd p0 (nth 0 ix 0) X0 J0 = wlist p0 (nth 0 ix 0) X0 J0 /\ jrange pd p1 (nth 1 ix 0) X1 J1 = wlist p1 (nth 1 ix 0) X1 J1 /\ jrange pd p2 (nth 2 ix 0) X2 J2 = wlist p2 (nth 2 ix 0) X2 J2).
  { intros ix I. rng. cbn [nth]. repeat split; apply jrange_window; intro E; apply all_zero in E; lia. }
  eexists. split; [reflexivity|]. intros order P. rewrite (launch_all _ _ k_bbbtt _ [N0; N1; N2; O; C] (fun ix => (cell r ix, flat_map (fun e => [cell x [nth 0 ix 0 + fst (fst (fst e)) - p0; nth 1 ix 0 + snd (fst (fst e)) - p1; nth 2 ix 0 + snd (fst e) - p2; snd e; nth 4 ix 0];
        cell w [nth 3 ix 0; fst (fst (fst e)); snd (fst (fst e)); snd (fst e); snd e]])
      (loop3 (jrange pd p0 (nth 0 ix 0) X0 J0) (jrange pd p1 (nth 1 ix 0) X1 J1) (jrange pd p2 (nth 2 ix 0) X2 J2) A)))) in P.
  - rewrite <- Dr in P. eapply conv_gains in P; [exact P|exact Op| |].
    + intros ix [[[j0 j1] j2] a] I K. rewrite Dr in I. destruct (Hw ix I) as (-> & -> & ->) in K. rng. cbn [nth fst snd] in *. apply in_loop3 in K. destruct K as (K0 & K1 & K2 & Ka). apply in_wlist in K0. apply in_wlist in K1. apply in_wlist in K2. rewrite Dx, Dw. split; inr.
    + intros ix I. rewrite Dr in I. destruct (Hw ix I) as (-> & -> & ->). rewrite sum_loop3. cbn [fst snd]. rewrite <- bank3_loops. apply rsum_ext. intros j0 _. apply rsum_ext. intros j1 _. apply rsum_ext. intros j2 _. apply rsum_ext. intros a _. ring.
  - intro t. unfold k3_5, nd. rewrite Dx, Dw. cbn [nth k_bbbtt]. f_equal. rewrite !flat_map_concat_map. f_equal. apply map_ext. intros [[[j0 j1] j2] a]. reflexivity.
  - apply th_bbbtt.
  - intros ix I. rng. apply ok_true; nia.
Qed.
Lemma conv3_6 r x w m B N0 N1 N2 O X0 X1 X2 A C J0 J1 J2 : operands r [x; w] m -> vdims r = [B; N0; N1; N2; O; C] -> vdims x = [B; X0; X1; X2; A; C] -> vdims w = [O; J0; J1; J2; A] ->
  B * N0 <= 2147483647 -> N1 <= 65535 -> N2 <= 65535 -> O * C <= 1024 -> (centred N0 X0 J0 = 0 -> centred N1 X1 J1 = 0 -> centred N2 X2 J2 = 0 -> N0 + J0 - 1 <= X0 /\ N1 + J1 - 1 <= X1 /\ N2 + J2 - 1 <= X2) ->
  exists plan, rconv3_6_cu r x w = Ok plan /\ forall order, Permutation order plan -> exists m', cu_exec f_conv [order] m = Ok m' /\
    gains r (fun ix => bank3 X0 X1 X2 J0 J1 J2 A (centred N0 X0 J0) (centred N1 X1 J1) (centred N2 X2 J2) (fun q0 q1 q2 a => elem0 m x [nth 0 ix 0; q0; q1; q2; a; nth 5 ix 0]) (fun j0 j1 j2 a => elem0 m w [nth 4 ix 0; j0; j1; j2; a]) (nth 1 ix 0) (nth 2 ix 0) (nth 3 ix 0)) m m'.
Proof.
  intros Op Dr Dx Dw B0 B1 B2 B3 Fit. unfold rconv3_6_cu, nd. rewrite Dr, Dx, Dw. cbn [nth]. eqs. cbv zeta. change (pad0 N0 X0 J0) with (centred N0 X0 J0). change (pad0 N1 X1 J1) with (centred N1 X1 J1). change (pad0 N2 X2 J2) with (centred N2 X2 J2).
  replace (O * C <=? 1024) with true by lia.
  set (p0 := centred N0 X0 J0) in *. set (p1 := centred N1 X1 J1) in *. set (p2 := centred N2 X2 J2) in *. set (pd := negb ((p0 =? 0) && (p1 =? 0) && (p2 =? 0))).
  assert (Hw : forall ix, in_range ix [B; N0; N1; N2; O; C] -> jrange pd p0 (nth 1 ix 0) X0 J0 = wlist p0 (nth 1 ix 0) X0 J0 /\ jrange pd p1 (nth 2 ix 0) X1 J1 = wlist p1 (nth 2 ix 0) X1 J1 /\ jrange pd p2 (nth 3 ix 0) X2 J2 = wlist p2 (nth 3 ix 0) X2 J2).
  { intros ix I. rng. cbn [nth]. repeat split; apply jrange_window; intro E; apply all_zero in E; lia. }
  pose proof (wf_nonneg r (proj1 Op)) as N. rewrite Dr in N. inversion N as [|? ? P0 N']; subst. inversion N' as [|? ? P1 _]; subst. clear N N'.
  eexists. split; [reflexivity|]. intros order P. rewrite (launch_all _ _ (c3_6 N0) _ [B; N0; N1; N2; O; C] (fun ix => (cell r ix, flat_map (fun e => [cell x [nth 0 ix 0; nth 1 ix 0 + fst (fst (fst e)) - p0; nth 2 ix 0 + snd (fst (fst e)) - p1; nth 3 ix 0 + snd (fst e) - p2; snd e; nth 5 ix 0];
        cell w [nth 4 ix 0; fst (fst (fst e)); snd (fst (fst e)); snd (fst e); snd e]])
      (loop3 (jrange pd p0 (nth 1 ix 0) X0 J0) (jrange pd p1 (nth 2 ix 0) X1 J1) (jrange pd p2 (nth 3 ix 0) X2 J2) A)))) in P.
  - rewrite <- Dr in P. eapply conv_gains in P; [exact P|exact Op| |].
    + intros ix [[[j0 j1] j2] a] I K. rewrite Dr in I. destruct (Hw ix I) as (-> & -> & ->) in K. rng. cbn [nth fst snd] in *. apply in_loop3 in K. destruct K as (K0 & K1 & K2 & Ka). apply in_wlist in K0. apply in_wlist in K1. apply in_wlist in K2. rewrite Dx, Dw. split; inr.
    + intros ix I. rewrite Dr in I. destruct (Hw ix I) as (-> & -> & ->). rewrite sum_loop3. cbn [fst snd]. rewrite <- bank3_loops. apply rsum_ext. intros j0 _. apply rsum_ext. intros j1 _. apply rsum_ext. intros j2 _. apply rsum_ext. intros a _. ring.
  - intro t. unfold k3_6, nd. rewrite Dr, Dx, Dw. cbn [nth c3_6]. f_equal. rewrite !flat_map_concat_map. f_equal. apply map_ext. intros [[[j0 j1] j2] a]. reflexivity.
  - now apply th3_6.
  - intros ix I. rng. apply ok_true; nia.
Qed.
End T.
