From Coq Require Import Reals Lra.
From Verif Require Import Base BaseFacts Model_Index Model_View Model_Tensor Model_Ops Model_CView Model_Spaces
  Spec_Index Spec_View Spec_Tensor Spec_Ops Spec_Spaces Proofs_Axes Proofs_Index Proofs_View Proofs_View2 Proofs_Tensor Proofs_Tensor2 Proofs_Tensor3 Proofs_Ops
  Proofs_Program Proofs_Sparse Proofs_Spaces.
Local Open Scope Z_scope.

Lemma in_range1 p n : in_range [p] [n] <-> 0 <= p < n.
Proof. split; intro K; [now inversion K|repeat constructor; lia]. Qed.
Lemma in_range1' ix n : in_range ix [n] -> exists p, ix = [p] /\ 0 <= p < n.
Proof. intro K. inversion K as [|p ? ? ? Hp K']; subst. inversion K'; subst. eauto. Qed.
Lemma in_range2 p i n m : in_range [p; i] [n; m] <-> 0 <= p < n /\ 0 <= i < m.
Proof. split; intro K; [inversion K as [|? ? ? ? Hp K']; subst; inversion K'; subst; auto|destruct K; repeat constructor; lia]. Qed.
Lemma in_range2' ix n m : in_range ix [n; m] -> exists p i, ix = [p; i] /\ 0 <= p < n /\ 0 <= i < m.
Proof.
  intro K. inversion K as [|p ? ? ? Hp K']; subst. inversion K' as [|i ? ? ? Hi K'']; subst. inversion K''; subst. eauto 6.
Qed.

(* a matrix whose elements lie in different cells *)
Definition gmat (M : view) (n m : Z) : Prop := vdims M = [n; m] /\ vwf M /\ nonneg (vstr M) /\ distinct_cells M.
(* a vector *)
Definition gvec (c : view) (n : Z) : Prop := vdims c = [n] /\ vwf c /\ nonneg (vstr c) /\ distinct_cells c.
Lemma gmat_str M n m : gmat M n m -> exists s0 s1, vstr M = [s0; s1] /\ 0 <= s0 /\ 0 <= s1 /\ 0 <= n /\ 0 <= m.
Proof.
  intros (D & (L & P) & N & _). rewrite D in L, P. destruct (vstr M) as [|s0 [|s1 [|]]]; cbn in L; try lia.
  inversion N as [|? ? N0 N']; subst. inversion N'; subst. inversion P as [|? ? P0 P']; subst. inversion P'; subst. eauto 8.
Qed.
Lemma col_ok M n m i : gmat M n m -> 0 <= i < m ->
  exists c, col i M = Ok c /\ gvec c n /\ vblk c = vblk M /\ (forall p, vaddr c [p] = vaddr M [p; i]).
Proof.
  intros G Hi. destruct (gmat_str M n m G) as (s0 & s1 & S & N0 & N1 & Pn & Pm). destruct G as (D & W & N & Dc).
  unfold col. rewrite D, S. replace (i <? m) with true by lia. cbn [assrt]. eexists. split; [reflexivity|].
  assert (V : forall p, vaddr (View (vblk M) (voff M + s1 * i) [n] [s0]) [p] = vaddr M [p; i]).
  { intro p. unfold vaddr, offs. rewrite S. cbn. do 2 f_equal. lia. }
  split; [|split; [reflexivity|exact V]]. repeat split; cbn; auto.
  - repeat constructor; assumption.
  - repeat constructor; assumption.
  - intros ix jx Hx Hy E. cbn in Hx, Hy. apply in_range1' in Hx as (p & -> & Hp). apply in_range1' in Hy as (q & -> & Hq).
    rewrite !V in E. apply Dc in E; [congruence| |]; rewrite D; apply in_range2; lia.
Qed.
Lemma row_ok M n m i : gmat M n m -> 0 <= i < n ->
  exists c, row i M = Ok c /\ gvec c m /\ vblk c = vblk M /\ (forall p, vaddr c [p] = vaddr M [i; p]).
Proof.
  intros G Hi. destruct (gmat_str M n m G) as (s0 & s1 & S & N0 & N1 & Pn & Pm). destruct G as (D & W & N & Dc).
  unfold row. rewrite D, S. replace (i <? n) with true by lia. cbn [assrt]. eexists. split; [reflexivity|].
  assert (V : forall p, vaddr (View (vblk M) (voff M + s0 * i) [m] [s1]) [p] = vaddr M [i; p]).
  { intro p. unfold vaddr, offs. rewrite S. cbn. do 2 f_equal. lia. }
  split; [|split; [reflexivity|exact V]]. repeat split; cbn; auto.
  - repeat constructor; assumption.
  - repeat constructor; assumption.
  - intros ix jx Hx Hy E. cbn in Hx, Hy. apply in_range1' in Hx as (p & -> & Hp). apply in_range1' in Hy as (q & -> & Hq).
    rewrite !V in E. apply Dc in E; [congruence| |]; rewrite D; apply in_range2; lia.
Qed.
Lemma gmat_fresh b n m : 0 <= n -> 0 <= m -> gmat (fresh_view b [n; m]) n m.
Proof.
  intros Hn Hm. assert (N : nonneg [n; m]) by (repeat constructor; assumption).
  split; [reflexivity|]. split; [now apply fresh_vwf|]. split; [|now apply fresh_distinct]. cbn [fresh_view vstr strides_of map fold_right app]. cbn. repeat constructor; try lia; destruct m; lia.
Qed.
Lemma gvec_fresh b n : 0 <= n -> gvec (fresh_view b [n]) n.
Proof.
  intros Hn. assert (N : nonneg [n]) by (repeat constructor; assumption).
  split; [reflexivity|]. split; [now apply fresh_vwf|]. split; [|now apply fresh_distinct]. cbn. repeat constructor; lia.
Qed.
(* views in different blocks *)
Lemma vaddr_ne_blk x y ix jx b a : vaddr x ix = Ok (b, a) -> vblk x <> vblk y -> vaddr y jx <> Ok (b, a).
Proof. intros E N E'. apply vaddr_blk in E. apply vaddr_blk in E'. congruence. Qed.

Section Herm.
Context {H : hfield}.
Notation A := (hr H).
Notation memA := (mem (car A)).
Add Ring RrSp2 : (cth A).

(* ---- vectors in memory ---- *)
Definition vals (m : memA) (c : view) (n : Z) (f : Z -> A) : Prop := forall p, 0 <= p < n -> elem m c [p] = Some (f p).
Lemma vals_readable m c n f : gvec c n -> vals m c n f -> readable m c.
Proof. intros (D & _) V ix Hix. rewrite D in Hix. apply in_range1' in Hix as (p & -> & Hp). rewrite V by assumption. discriminate. Qed.
Lemma vals_elem0 m c n f p : vals m c n f -> 0 <= p < n -> elem0 m c [p] = f p.
Proof. intros V Hp. unfold elem0. now rewrite V. Qed.
Lemma all_indices1 n : all_indices [n] = map (fun p => [p]) (zrange n).
Proof. cbn. induction (zrange n) as [|a l IH]; cbn; [reflexivity|]. now f_equal. Qed.

Lemma hinp_sum x y (m : memA) : vwf x -> vwf y -> vdims y = vdims x -> vdims x <> [] -> readable m x -> readable m y ->
  tv_hinp H x y m = Ok (rsum (map (fun ix => cmul (hconj H (elem0 m x ix)) (elem0 m y ix)) (all_indices (vdims x)))).
Proof.
  intros Wx Wy D Hne Rx Ry. unfold tv_hinp. rewrite D, eqlb_refl. cbn [assrt].
  pose proof Wx as [Lx Nx]. pose proof Wy as [Ly Ny]. rewrite D in Ly.
  destruct (is_regular (vstr x) (vdims x)) as [a| |] eqn:Ea.
  2,3: unfold is_regular in Ea; rewrite Lx, Nat.eqb_refl in Ea; discriminate.
  destruct (is_regular (vstr y) (vdims x)) as [b| |] eqn:Eb.
  2,3: unfold is_regular in Eb; rewrite Ly, Nat.eqb_refl in Eb; discriminate.
  cbn [bind]. destruct (a && b) eqn:E.
  - apply andb_prop in E as [-> ->]. apply is_regular_iff in Ea; [|assumption]. apply is_regular_iff in Eb; [|assumption].
    unfold forZ. rewrite asize_prod, <- row_major_addrs by assumption. rewrite foldM_map.
    rewrite (sum_loop _ _ (fun ix => cmul (hconj H (elem0 m x ix)) (elem0 m y ix))); [f_equal; ring|].
    intros ix t Hix. apply in_all_indices in Hix.
    pose proof (readable_elem m x ix Rx Hix) as E1.
    assert (Hiy : in_range ix (vdims y)) by congruence. pose proof (readable_elem m y ix Ry Hiy) as E2.
    rewrite elem_cell in E1 by assumption. rewrite elem_cell in E2 by (try assumption; apply Wy).
    unfold at_, cell in E1, E2. cbn in E1, E2. rewrite Ea in E1. rewrite Eb in E2.
    unfold load. rewrite E1. cbn. rewrite E2. reflexivity.
  - rewrite foreach_index_fold by assumption.
    rewrite (sum_loop _ _ (fun ix => cmul (hconj H (elem0 m x ix)) (elem0 m y ix))); [f_equal; ring|].
    intros ix t Hix. apply in_all_indices in Hix.
    assert (Hiy : in_range ix (vdims y)) by congruence.
    pose proof (readable_elem m x ix Rx Hix) as E1. pose proof (readable_elem m y ix Ry Hiy) as E2.
    rewrite vaddr_cell by assumption. rewrite vaddr_cell by (try assumption; apply Wy). cbn [bind].
    rewrite elem_cell in E1 by assumption. rewrite elem_cell in E2 by (try assumption; apply Wy).
    rewrite (loadA_some _ _ _ E1). cbn [bind]. rewrite (loadA_some _ _ _ E2). reflexivity.
Qed.
Lemma vec_inp x y n f g (m : memA) : gvec x n -> gvec y n -> vals m x n f -> vals m y n g -> tv_hinp H x y m = Ok (ip H n f g).
Proof.
  intros Gx Gy Vx Vy. pose proof (vals_readable _ _ _ _ Gx Vx) as Rx. pose proof (vals_readable _ _ _ _ Gy Vy) as Ry.
  destruct Gx as (Dx & Wx & _), Gy as (Dy & Wy & _). rewrite hinp_sum; try assumption; try congruence.
  f_equal. rewrite Dx, all_indices1, map_map. apply rsum_ext. intros p Hp. apply in_zrange in Hp.
  now rewrite (vals_elem0 m x n f p Vx Hp), (vals_elem0 m y n g p Vy Hp).
Qed.
Lemma vec_norm2 x n f (m : memA) : gvec x n -> vals m x n f -> tv_hnorm2 H x m = Ok (len2 H n f).
Proof.
  intros Gx Vx. pose proof (vals_readable _ _ _ _ Gx Vx) as Rx. destruct Gx as (Dx & Wx & Nx & Cx). unfold tv_hnorm2.
  destruct (reduce_ok (fun t v => (t + hsq H v)%R) x 0%R m) as (vs & -> & P); try assumption. f_equal.
  pose proof (fold_left_sum (R := RRing) (hsq H) vs 0%R) as E. cbn [cadd RRing] in E. cbn [car RRing] in *. rewrite E.
  rewrite Dx, all_indices1, map_map in P. pose proof (Permutation_map (hsq H) P) as P1.
  pose proof (rsum_perm RRing _ _ P1) as E1. cbn [car RRing] in *. rewrite E1, map_map. rewrite Rplus_0_l. unfold len2. f_equal.
  apply map_ext_in. intros p Hp. apply in_zrange in Hp. now rewrite (vals_elem0 m x n f p Vx Hp).
Qed.
Lemma vec_norm x n f (m : memA) : gvec x n -> vals m x n f -> tv_hnorm H x m = Ok (sqrt (len2 H n f)).
Proof. intros Gx Vx. unfold tv_hnorm. now rewrite (vec_norm2 x n f m Gx Vx). Qed.
Lemma vec_ew (F : A -> list A -> A) (h : A -> A -> A) x y n f g (m : memA) : (forall u v, F u [v] = h u v) ->
  gvec x n -> gvec y n -> disjoint_views x y -> vals m x n f -> vals m y n g ->
  exists m', reg_or_each F x [y] m = Ok m' /\ vals m' x n (fun p => h (f p) (g p)) /\ untouched m m' x.
Proof.
  intros HF Gx Gy Dj Vx Vy. pose proof (vals_readable _ _ _ _ Gx Vx) as Rx. pose proof (vals_readable _ _ _ _ Gy Vy) as Ry.
  destruct Gx as (Dx & Wx & Nx & Cx), Gy as (Dy & Wy & _).
  destruct (reg_or_each_ok F x [y] m) as (m' & E & W); auto.
  { constructor; [|constructor]. split; [exact Wy|]. split; [congruence|]. split; [exact Ry|]. intros ix jx Hx Hy Q. exfalso. now apply (Dj ix jx). }
  exists m'. split; [exact E|]. split; [|apply W]. intros p Hp.
  rewrite (ew1 _ x y m m' W [p] (f p) (g p)); [now rewrite HF| | |].
  - rewrite Dx. now apply in_range1.
  - now apply Vx.
  - now apply Vy.
Qed.
Lemma vec_subc x y n f g c (m : memA) : gvec x n -> gvec y n -> disjoint_views x y -> vals m x n f -> vals m y n g ->
  exists m', tv_subc x y c m = Ok m' /\ vals m' x n (fun p => csub (f p) (cmul c (g p))) /\ untouched m m' x.
Proof.
  intros Gx Gy Dj Vx Vy. unfold tv_subc. rewrite asz_refl by (rewrite (proj1 Gx), (proj1 Gy); reflexivity). cbn [assrt].
  apply (vec_ew (f_subc c) (fun u v => csub u (cmul c v)) x y n f g m); auto.
Qed.
Lemma vec_addc x y n f g c (m : memA) : gvec x n -> gvec y n -> disjoint_views x y -> vals m x n f -> vals m y n g ->
  exists m', tv_addc x y c m = Ok m' /\ vals m' x n (fun p => cadd (f p) (cmul c (g p))) /\ untouched m m' x.
Proof.
  intros Gx Gy Dj Vx Vy. unfold tv_addc. rewrite asz_refl by (rewrite (proj1 Gx), (proj1 Gy); reflexivity). cbn [assrt].
  apply (vec_ew (f_addc c) (fun u v => cadd u (cmul c v)) x y n f g m); auto.
Qed.
Lemma vec_sub x y n f g (m : memA) : gvec x n -> gvec y n -> disjoint_views x y -> vals m x n f -> vals m y n g ->
  exists m', tv_sub x y m = Ok m' /\ vals m' x n (fun p => csub (f p) (g p)) /\ untouched m m' x.
Proof.
  intros Gx Gy Dj Vx Vy. unfold tv_sub. rewrite asz_refl by (rewrite (proj1 Gx), (proj1 Gy); reflexivity). cbn [assrt].
  apply (vec_ew f_sub (fun u v => csub u v) x y n f g m); auto.
Qed.
Lemma vals_ext m c n f g : vals m c n f -> (forall p, 0 <= p < n -> f p = g p) -> vals m c n g.
Proof. intros V E p Hp. rewrite <- E by assumption. now apply V. Qed.

(* ---- columns of matrices ---- *)
Lemma cols_vals m M n k F c i : columns H m M n k F -> 0 <= i < k -> (forall p, vaddr c [p] = vaddr M [p; i]) -> vals m c n (F i).
Proof. intros (D & V) Hi E p Hp. unfold elem. rewrite E. now apply V. Qed.
(* writing column i of M changes that column only *)
Lemma cols_put m m' M n k F c i f : gmat M n k -> columns H m M n k F -> 0 <= i < k -> gvec c n -> (forall p, vaddr c [p] = vaddr M [p; i]) ->
  vals m' c n f -> untouched m m' c -> columns H m' M n k (fun j => if j =? i then f else F j).
Proof.
  intros (D & W & N & Dc) (_ & V) Hi Gc E V' U. split; [exact D|]. intros p j Hp Hj. destruct (j =? i) eqn:Ej.
  - assert (j = i) as -> by lia. specialize (V' p Hp). unfold elem in V'. rewrite E in V'. exact V'.
  - specialize (V p j Hp Hj). unfold elem in *. destruct (vaddr M [p; j]) as [[b a]| |] eqn:Ea; try discriminate.
    rewrite U; [exact V|]. intros ix Hix Q. rewrite (proj1 Gc) in Hix. apply in_range1' in Hix as (q & -> & Hq). rewrite E in Q. rewrite <- Ea in Q.
    apply Dc in Q; [|rewrite D; apply in_range2; lia..]. injection Q as _ Q. lia.
Qed.
(* a matrix in another block keeps its columns *)
Lemma cols_keep m m' M n k F c : columns H m M n k F -> vblk c <> vblk M -> untouched m m' c -> columns H m' M n k F.
Proof.
  intros (D & V) Nb U. split; [exact D|]. intros p j Hp Hj. specialize (V p j Hp Hj). unfold elem in *.
  destruct (vaddr M [p; j]) as [[b a]| |] eqn:Ea; try discriminate. rewrite U; [exact V|]. intros ix _ Q.
  apply vaddr_blk in Q. apply vaddr_blk in Ea. congruence.
Qed.
Lemma cols_ext m M n k F F' : columns H m M n k F -> (forall i p, 0 <= i < k -> 0 <= p < n -> F i p = F' i p) -> columns H m M n k F'.
Proof. intros (D & V) E. split; [exact D|]. intros p i Hp Hi. rewrite <- E by assumption. now apply V. Qed.
Lemma vec_disjoint x y n k : gvec x n -> gvec y k -> vblk x <> vblk y -> disjoint_views x y.
Proof.
  intros (_ & [Lx _] & _) (_ & [Ly _] & _) N ix jx Hx Hy E. rewrite !vaddr_cell in E by assumption. unfold cell in E. congruence.
Qed.
End Herm.
