From Coq Require Import Reals Lra.
From Verif Require Import Base BaseFacts Model_Index Model_View Model_Tensor Model_Ops Model_CView Model_Spaces
  Spec_Index Spec_View Spec_Tensor Spec_Ops Spec_Spaces Proofs_Axes Proofs_Index Proofs_View Proofs_View2 Proofs_Tensor Proofs_Tensor2 Proofs_Tensor3 Proofs_Ops
  Proofs_Program Proofs_Sparse Proofs_Spaces Proofs_Spaces2 Proofs_Spaces3 Proofs_Spaces4 Proofs_Spaces5.
Local Open Scope Z_scope.

Section Herm.
Context {H : hfield}.
Notation A := (hr H).
Notation memA := (mem (car A)).
Notation resid := (leftover H).
Add Ring RrSp6 : (cth A).

(* n orthonormal vectors span everything *)
Lemma full_span n Q v : 0 <= n -> orthonormal H n n Q -> forall p, 0 <= p < n -> v p = comb H n (fun j => ip H n (Q j) v) Q p.
Proof.
  intros Hn O p Hp. pose proof (orthonormal_square n Q Hn O) as O2. unfold comb.
  rewrite (rsum_ext A _ (fun j => rsum (map (fun q => cmul (v q) (cmul (hconj H (Q j q)) (Q j p))) (zrange n)))).
  2:{ intros j _. unfold ip. rewrite <- rsum_map_mul_r. apply rsum_ext. intros q _. ring. }
  rewrite rsum_swap. rewrite (rsum_ext A _ (fun q => if p =? q then v q else c0)); [now rewrite rsum_zif|].
  intros q Hq. apply in_zrange in Hq. rewrite rsum_map_mul_l.
  replace (rsum (map (fun j => cmul (hconj H (Q j q)) (Q j p)) (zrange n))) with (if p =? q then c1 : A else c0).
  - destruct (p =? q); ring.
  - rewrite <- (O2 p q Hp Hq). apply rsum_ext. intros j _. cbn beta. rewrite hconj_conj. ring.
Qed.
(* the columns of a square matrix with orthonormal rows *)
Lemma square_columns n Q : 0 <= n -> orthonormal H n n Q -> orthonormal H n n (fun p j => Q j p).
Proof.
  intros Hn O p q Hp Hq. pose proof (orthonormal_square n Q Hn O p q Hp Hq) as E.
  replace (ip H n (fun j => Q j p) (fun j => Q j q)) with (hconj H (ip H n (fun j => hconj H (Q j p)) (fun j => hconj H (Q j q)))).
  - rewrite E. destruct (p =? q); [apply conj_1|apply conj_0].
  - unfold ip. rewrite conj_sum. apply rsum_ext. intros j _. rewrite hconj_mul, !hconj_conj. ring.
Qed.

Lemma col_norms_ok A0 n k Q (m : memA) : gmat A0 n k -> columns H m A0 n k Q ->
  exists f, col_norms H A0 k m = Ok f /\ forall j, 0 <= j < k -> f j = len2 H n (Q j).
Proof.
  intros G C. destruct (gmat_str A0 n k G) as (s0 & s1 & _ & _ & _ & Hn & Hk). unfold col_norms.
  apply (forZ_inv (fun i f => forall j, 0 <= j < i -> f j = len2 H n (Q j))); [exact Hk|intros; lia|].
  intros i f Hi K. destruct (col_ok A0 n k i G Hi) as (c & E & Gc & _ & Ac). rewrite E. cbn [bind].
  rewrite (vec_norm2 c n (Q i) m Gc) by (eapply cols_vals; eauto). cbn [bind]. eexists. split; [reflexivity|].
  intros j Hj. cbn. destruct (j =? i) eqn:Ej; [now replace j with i by lia|]. apply K. lia.
Qed.
Lemma unit_norm n k Q j : orthonormal H n k Q -> 0 <= j < k -> len2 H n (Q j) = 1%R.
Proof. intros O Hj. apply (hinj_eq H). rewrite ip_len2, O, Z.eqb_refl by assumption. symmetry. apply hinj_1. Qed.

(* the loops of ComplementSpace *)
Lemma complement_ok A0 M n k bu Q thr (m : memA) : (forall x, hconj H x = x) -> 0 <= n -> 0 <= k -> (0 <= thr)%R ->
  gmat A0 n k -> gmat M n n -> vblk A0 <> vblk M -> vblk A0 <> bu -> vblk M <> bu -> orthonormal H n k Q ->
  columns H m A0 n k Q -> columns H m M n n (fun _ _ => c0) ->
  exists norms l P r m', col_norms H A0 k m = Ok norms /\ complement_loop H A0 M norms n k bu thr m = Ok (r, m') /\
    columns H m' r n l P /\ 0 <= l <= n /\ orthonormal H n l P /\ (forall i j, 0 <= i < k -> 0 <= j < l -> ip H n (Q i) (P j) = c0) /\
    columns H m' A0 n k Q /\ (forall b a, b <> vblk M -> b <> bu -> m' b a = m b a) /\ k + l <= n /\
    ((IZR n * (thr * thr) < 1)%R -> k + l = n /\ forall v, (forall i, 0 <= i < k -> ip H n (Q i) v = c0) -> spanned H n l P v).
Proof.
  intros Hc Hn Hk Ht GA GM B1 B2 B3 OQ CA CM.
  destruct (col_norms_ok A0 n k Q m GA CA) as (norms & En & Kn).
  assert (HN : forall j, 0 <= j < k -> norms j = 1%R) by (intros j Hj; rewrite Kn by assumption; eapply unit_norm; eauto).
  destruct (comp_loop_ok Hc A0 M n k bu Q norms thr Hn Hk Ht GA GM B1 B2 B3 HN OQ m CA CM) as (l & P & m' & E & Hl & O & CA' & CM' & U & Cl).
  assert (EP : forall j, 0 <= j -> follow k Q P (k + j) = P j) by (intros j Hj; unfold follow; replace (k + j <? k) with false by lia; f_equal; lia).
  assert (EQ : forall j, j < k -> follow k Q P j = Q j) by (intros j Hj; unfold follow; now replace (j <? k) with true by lia).
  assert (EL : complement_loop H A0 M norms n k bu thr m = Ok (View (vblk M) (voff M) [n; l] (vstr M), m')).
  { unfold complement_loop. rewrite E. cbn [bind]. rewrite (proj1 GM). change (zget [n; n] 0) with (Ok n). cbn [bind].
    unfold block_dims. rewrite (proj1 GM). cbn [gvec_le]. rewrite Z.eqb_refl.
    replace (if l =? n then true else l <=? n) with true by (destruct (l =? n); [reflexivity|symmetry; lia]). reflexivity. }
  exists norms, l, P. eexists _, m'. split; [exact En|]. split; [exact EL|].
  split; [|split; [exact Hl|]].
  { split; [reflexivity|]. intros p i Hp Hi. destruct CM' as [_ V]. specialize (V p i Hp ltac:(lia)). exact V. }
  split; [|split; [|split; [exact CA'|split; [exact U|split]]]].
  - intros i j Hi Hj. rewrite <- (EP i), <- (EP j) by lia. rewrite O by lia. destruct (i =? j) eqn:Eij; [now replace (k + i =? k + j) with true by lia|now replace (k + i =? k + j) with false by lia].
  - intros i j Hi Hj. rewrite <- (EQ i), <- (EP j) by lia. rewrite O by lia. now replace (i =? k + j) with false by lia.
  - apply (orthonormal_le n (k + l) (follow k Q P)); auto; lia.
  - intro Sm. assert (Full : k + l = n) by (apply (comp_complete n k norms thr Hn HN (k + l) (follow k Q P)); auto; lia). split; [exact Full|].
    intros v Hv. exists (fun j => ip H n (P j) v). intros p Hp. rewrite Full in O. rewrite (full_span n _ v Hn O p Hp) at 1. unfold comb.
    rewrite <- Full, zrange_app by lia. rewrite map_app, rsum_app, map_map, rsum_zero.
    + rewrite (rsum_ext A _ (fun j => cmul (ip H n (P j) v) (P j p))).
      * rewrite Full. ring.
      * intros j Hj. apply in_zrange in Hj. rewrite EP by lia. now rewrite Full.
    + intros j Hj. apply in_zrange in Hj. rewrite EQ by lia. rewrite Full, Hv by assumption. ring.
Qed.
End Herm.
