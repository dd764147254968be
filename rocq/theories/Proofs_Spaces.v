From Coq Require Import Reals Lra.
From Verif Require Import Base BaseFacts Model_Index Model_View Model_Tensor Model_Ops Model_CView Model_Spaces
  Spec_Index Spec_View Spec_Tensor Spec_Spaces Proofs_Program.
Local Open Scope Z_scope.

Lemma zrange_snoc n : 0 <= n -> zrange (n + 1) = zrange n ++ [n].
Proof.
  intro Hn. unfold zrange. replace (Z.to_nat (n + 1)) with (S (Z.to_nat n)) by lia. rewrite seq_S, map_app. cbn. f_equal. f_equal. lia.
Qed.

(* ---- sums of reals ---- *)
Section RSums.
Open Scope R_scope.
Lemma rs_nonneg {X} (f : X -> R) l : (forall x, In x l -> 0 <= f x) -> 0 <= @rsum RRing (map f l).
Proof.
  induction l as [|a l IH]; intro K; cbn [map]; [rewrite rsum_nil; cbn; lra|]. rewrite rsum_cons. cbn [cadd RRing].
  assert (0 <= f a) by (apply K; now left). assert (0 <= @rsum RRing (map f l)) by (apply IH; intros; apply K; now right). lra.
Qed.
Lemma rs_zero {X} (f : X -> R) l : (forall x, In x l -> 0 <= f x) -> @rsum RRing (map f l) = 0 -> forall x, In x l -> f x = 0.
Proof.
  induction l as [|a l IH]; intros K E x; [intros []|]. cbn [map] in E. rewrite rsum_cons in E. cbn [cadd RRing] in E.
  assert (0 <= f a) by (apply K; now left).
  assert (Kl : forall x, In x l -> 0 <= f x) by (intros; apply K; now right). pose proof (rs_nonneg f l Kl) as P.
  intros [<-|Hx]; [cbn in *; lra|]. apply IH; auto. cbn in *. lra.
Qed.
Lemma rs_term {X} (f : X -> R) l x : (forall x, In x l -> 0 <= f x) -> In x l -> f x <= @rsum RRing (map f l).
Proof.
  induction l as [|a l IH]; intros K; [intros []|]. cbn [map]. rewrite rsum_cons. cbn [cadd RRing].
  assert (0 <= f a) by (apply K; now left).
  assert (Kl : forall x, In x l -> 0 <= f x) by (intros; apply K; now right). pose proof (rs_nonneg f l Kl) as P.
  intros [<-|Hx]; [cbn in *; lra|]. specialize (IH Kl Hx). cbn in *. lra.
Qed.
Lemma rs_const (c : R) n : (0 <= n)%Z -> @rsum RRing (map (fun _ => c) (zrange n)) = IZR n * c.
Proof.
  intro Hn. pattern n. apply natlike_ind; auto; clear n Hn.
  - cbn. rewrite rsum_nil. cbn. lra.
  - intros n Hn IH. rewrite <- Z.add_1_r, zrange_snoc by assumption. rewrite map_app, rsum_app, IH. cbn [map].
    rewrite rsum_cons, rsum_nil, plus_IZR. cbn. lra.
Qed.
End RSums.

Section Herm.
Context {H : hfield}.
Notation A := (hr H).
Notation conj := (hconj H).
Notation inj := (hinj H).
Add Ring RrSp : (cth A).

Lemma conj_0 : conj c0 = c0.
Proof. rewrite <- (hinj_0 H). apply hconj_inj. Qed.
Lemma conj_1 : conj c1 = c1.
Proof. rewrite <- (hinj_1 H). apply hconj_inj. Qed.
Lemma opp_m (x : A) : copp x = cmul (copp c1) x.
Proof. ring. Qed.
Lemma conj_m1 : conj (copp c1) = copp c1.
Proof.
  assert (E : cadd (conj (copp c1)) c1 = c0).
  { rewrite <- conj_1 at 2. rewrite <- hconj_add. replace (cadd (copp c1) c1 : A) with (c0 : A) by ring. apply conj_0. }
  replace (conj (copp c1)) with (csub (cadd (conj (copp c1)) c1) c1) by ring. rewrite E. ring.
Qed.
Lemma conj_sub x y : conj (csub x y) = csub (conj x) (conj y).
Proof.
  replace (csub x y) with (cadd x (cmul (copp c1) y)) by ring. rewrite hconj_add, hconj_mul, conj_m1. ring.
Qed.
Lemma conj_sum {X} (f : X -> A) l : conj (rsum (map f l)) = rsum (map (fun x => conj (f x)) l).
Proof. induction l as [|a l IH]; cbn [map]; [rewrite rsum_nil; apply conj_0|]. rewrite !rsum_cons, hconj_add. now f_equal. Qed.
Lemma inj_sum {X} (f : X -> R) l : inj (@rsum RRing (map f l)) = rsum (map (fun x => inj (f x)) l).
Proof.
  induction l as [|a l IH]; cbn [map]; [rewrite !rsum_nil; apply hinj_0|]. rewrite !rsum_cons. cbn [cadd RRing]. rewrite hinj_add. now f_equal.
Qed.
Lemma inj_sub a b : inj (a - b)%R = csub (inj a) (inj b).
Proof.
  assert (E : cadd (inj (a - b)%R) (inj b) = inj a) by (rewrite <- hinj_add; f_equal; ring). rewrite <- E. ring.
Qed.
Lemma inj_not0 a : inj a = c0 -> a = 0%R.
Proof. intro E. apply (hinj_eq H). now rewrite E, hinj_0. Qed.
Lemma conj_inj_eq x y : conj x = conj y -> x = y.
Proof. intro E. rewrite <- (hconj_conj H x), E. apply hconj_conj. Qed.

(* ---- the inner product ---- *)
Lemma ip_ext n u u' v v' : (forall p, 0 <= p < n -> u p = u' p) -> (forall p, 0 <= p < n -> v p = v' p) -> ip H n u v = ip H n u' v'.
Proof. intros E1 E2. apply rsum_ext. intros p Hp. apply in_zrange in Hp. now rewrite E1, E2. Qed.
Lemma ip_conj n u v : conj (ip H n u v) = ip H n v u.
Proof. unfold ip. rewrite conj_sum. apply rsum_ext. intros p _. rewrite hconj_mul, hconj_conj. ring. Qed.
Lemma ip_len2 n v : inj (len2 H n v) = ip H n v v.
Proof. unfold len2, ip. rewrite inj_sum. apply rsum_ext. intros p _. apply hsq_mul. Qed.
Lemma len2_pos n v : (0 <= len2 H n v)%R.
Proof. apply rs_nonneg. intros. apply hsq_pos. Qed.
Lemma len2_0 n v : len2 H n v = 0%R -> forall p, 0 <= p < n -> v p = c0.
Proof. intros E p Hp. apply (hsq_0 H). apply (rs_zero (fun p => hsq H (v p)) (zrange n)); auto; [intros; apply hsq_pos|now apply in_zrange]. Qed.
Lemma len2_ext n u v : (forall p, 0 <= p < n -> u p = v p) -> len2 H n u = len2 H n v.
Proof. intro E. unfold len2. f_equal. apply map_ext_in. intros p Hp. apply in_zrange in Hp. now rewrite E. Qed.
Lemma ip_sub_r n u v w : ip H n u (fun p => csub (v p) (w p)) = csub (ip H n u v) (ip H n u w).
Proof.
  unfold ip. rewrite (rsum_ext A _ (fun p => cadd (cmul (conj (u p)) (v p)) (cmul (copp c1) (cmul (conj (u p)) (w p))))) by (intros; ring).
  rewrite rsum_map_add, rsum_map_mul_l. ring.
Qed.
Lemma ip_scale_r n u c v : ip H n u (fun p => cmul c (v p)) = cmul c (ip H n u v).
Proof.
  unfold ip. rewrite (rsum_ext A _ (fun p => cmul c (cmul (conj (u p)) (v p)))) by (intros; ring). apply rsum_map_mul_l.
Qed.
Lemma ip_scale_l n c u v : ip H n (fun p => cmul c (u p)) v = cmul (conj c) (ip H n u v).
Proof.
  unfold ip. rewrite (rsum_ext A _ (fun p => cmul (conj c) (cmul (conj (u p)) (v p)))) by (intros; rewrite hconj_mul; ring). apply rsum_map_mul_l.
Qed.
Lemma ip_comb_r n k u c Q : ip H n u (comb H k c Q) = rsum (map (fun j => cmul (c j) (ip H n u (Q j))) (zrange k)).
Proof.
  unfold ip, comb.
  rewrite (rsum_ext A _ (fun p => rsum (map (fun j => cmul (conj (u p)) (cmul (c j) (Q j p))) (zrange k)))).
  2:{ intros p _. now rewrite rsum_map_mul_l. }
  rewrite rsum_swap. apply rsum_ext. intros j _.
  rewrite (rsum_ext A _ (fun p => cmul (c j) (cmul (conj (u p)) (Q j p)))) by (intros; ring). apply rsum_map_mul_l.
Qed.
Lemma ip_zero_r n u : ip H n u (fun _ => c0) = c0.
Proof. apply rsum_zero. intros. ring. Qed.

(* ---- orthogonal projection ---- *)
Lemma ip_comb_basis n k Q c i : orthonormal H n k Q -> 0 <= i < k -> ip H n (Q i) (comb H k c Q) = c i.
Proof.
  intros O Hi. rewrite ip_comb_r.
  rewrite (rsum_ext A _ (fun j => if i =? j then c j else c0)).
  - now rewrite rsum_zif.
  - intros j Hj. apply in_zrange in Hj. rewrite O by assumption. destruct (i =? j); ring.
Qed.
(* what is left of v after its projection to Q 0 .. Q (k-1) *)
Notation resid := (leftover H).
Lemma resid_orth n k Q v i : orthonormal H n k Q -> 0 <= i < k -> ip H n (Q i) (resid n k Q v) = c0.
Proof. intros O Hi. unfold leftover. rewrite ip_sub_r, (ip_comb_basis n k Q _ i O Hi). ring. Qed.
Lemma resid_orth' n k Q v i : orthonormal H n k Q -> 0 <= i < k -> ip H n (resid n k Q v) (Q i) = c0.
Proof. intros O Hi. rewrite <- ip_conj, resid_orth by assumption. apply conj_0. Qed.
Lemma resid_self n k Q v : orthonormal H n k Q -> ip H n (resid n k Q v) (resid n k Q v) = ip H n (resid n k Q v) v.
Proof.
  intro O. unfold leftover at 2. rewrite ip_sub_r, ip_comb_r. rewrite rsum_zero; [ring|].
  intros j Hj. apply in_zrange in Hj. rewrite resid_orth' by assumption. ring.
Qed.
Lemma resid_len n k Q v : orthonormal H n k Q ->
  len2 H n (resid n k Q v) = (len2 H n v - @rsum RRing (map (fun j => hsq H (ip H n (Q j) v)) (zrange k)))%R.
Proof.
  intro O. apply (hinj_eq H). rewrite ip_len2, (resid_self n k Q v O), inj_sub, inj_sum, ip_len2.
  rewrite <- ip_conj. unfold leftover. rewrite ip_sub_r, ip_comb_r, conj_sub, ip_conj. f_equal. rewrite conj_sum.
  apply rsum_ext. intros j _. rewrite hconj_mul, hsq_mul, !ip_conj. ring.
Qed.
(* subtracting one more projection *)
Lemma resid_step n k Q v : 0 <= k -> orthonormal H n (k + 1) Q ->
  forall p, csub (resid n k Q v p) (cmul (ip H n (Q k) (resid n k Q v)) (Q k p)) = resid n (k + 1) Q v p.
Proof.
  intros Hk O p.
  assert (E : ip H n (Q k) (resid n k Q v) = ip H n (Q k) v).
  { unfold leftover. rewrite ip_sub_r, ip_comb_r, rsum_zero; [ring|]. intros j Hj. apply in_zrange in Hj.
    rewrite O by lia. destruct (k =? j) eqn:E; [lia|ring]. }
  rewrite E. unfold leftover, comb. rewrite zrange_snoc, map_app, rsum_app by assumption. cbn [map]. rewrite rsum_cons, rsum_nil. ring.
Qed.
Lemma resid_ext n k Q Q' v v' : (forall j p, 0 <= j < k -> 0 <= p < n -> Q j p = Q' j p) -> (forall p, 0 <= p < n -> v p = v' p) ->
  forall p, 0 <= p < n -> resid n k Q v p = resid n k Q' v' p.
Proof.
  intros EQ Ev p Hp. unfold leftover, comb. rewrite Ev by assumption. f_equal. apply rsum_ext. intros j Hj. apply in_zrange in Hj.
  rewrite EQ by assumption. f_equal. apply ip_ext; auto.
Qed.
(* a residual divided by its length *)
Lemma unit_len n v : len2 H n v <> 0%R ->
  ip H n (fun p => cmul (inj (1 / sqrt (len2 H n v))%R) (v p)) (fun p => cmul (inj (1 / sqrt (len2 H n v))%R) (v p)) = c1.
Proof.
  intro N. set (l := len2 H n v) in *. rewrite ip_scale_l, ip_scale_r, <- ip_len2, hconj_inj, <- !hinj_mul, <- hinj_1. f_equal. fold l.
  assert (0 < sqrt l)%R by (apply sqrt_lt_R0; pose proof (len2_pos n v); unfold l in *; lra).
  assert (E : l = (sqrt l * sqrt l)%R) by (symmetry; apply sqrt_def; apply len2_pos). rewrite E at 3. field. lra.
Qed.
Definition extend (k : Z) (Q : Z -> Z -> A) (q : Z -> A) : Z -> Z -> A := fun j => if j =? k then q else Q j.
Lemma orthonormal_extend n k Q q : orthonormal H n k Q -> ip H n q q = c1 -> (forall i, 0 <= i < k -> ip H n (Q i) q = c0) ->
  orthonormal H n (k + 1) (extend k Q q).
Proof.
  intros O E1 E0 i j Hi Hj. unfold extend. destruct (i =? k) eqn:Ei, (j =? k) eqn:Ej.
  - replace (i =? j) with true by lia. exact E1.
  - replace (i =? j) with false by lia. rewrite <- ip_conj, E0 by lia. apply conj_0.
  - replace (i =? j) with false by lia. apply E0. lia.
  - apply O; lia.
Qed.
Lemma orthonormal_ext n k Q Q' : orthonormal H n k Q -> (forall j p, 0 <= j < k -> 0 <= p < n -> Q j p = Q' j p) -> orthonormal H n k Q'.
Proof. intros O E i j Hi Hj. rewrite <- O by assumption. apply ip_ext; intros; symmetry; auto. Qed.

(* ---- at most n orthonormal vectors; n of them span everything ---- *)
Definition unitv (p q : Z) : A := if q =? p then c1 else c0.
Lemma ip_unit n u p : 0 <= p < n -> ip H n u (unitv p) = conj (u p).
Proof.
  intro Hp. unfold ip, unitv. rewrite (rsum_ext A _ (fun q => if p =? q then conj (u q) else c0)).
  - now rewrite rsum_zif.
  - intros q _. rewrite (Z.eqb_sym q p). destruct (p =? q); ring.
Qed.
Lemma len2_unit n p : 0 <= p < n -> len2 H n (unitv p) = 1%R.
Proof.
  intro Hp. apply (hinj_eq H). rewrite ip_len2, ip_unit by assumption. unfold unitv. rewrite Z.eqb_refl, conj_1. symmetry. apply hinj_1.
Qed.
Lemma hsq_conj x : hsq H (conj x) = hsq H x.
Proof. apply (hinj_eq H). rewrite !hsq_mul, hconj_conj. ring. Qed.
Lemma bessel n k Q : 0 <= n -> 0 <= k -> orthonormal H n k Q ->
  @rsum RRing (map (fun p => len2 H n (resid n k Q (unitv p))) (zrange n)) = (IZR n - IZR k)%R.
Proof.
  intros Hn Hk O.
  transitivity (@rsum RRing (map (fun p => (1 + (-1) * @rsum RRing (map (fun j => hsq H (Q j p)) (zrange k)))%R) (zrange n))).
  - f_equal. apply map_ext_in. intros p Hp. apply in_zrange in Hp. rewrite resid_len, len2_unit by assumption.
    replace (map (fun j => hsq H (ip H n (Q j) (unitv p))) (zrange k)) with (map (fun j => hsq H (Q j p)) (zrange k)); [ring|].
    apply map_ext_in. intros j _. now rewrite ip_unit, hsq_conj.
  - pose proof (rsum_map_add RRing (fun _ : Z => 1%R) (fun p => ((-1) * @rsum RRing (map (fun j => hsq H (Q j p)) (zrange k)))%R) (zrange n)) as E1.
    cbn [cadd RRing] in E1. cbn [car RRing] in *. rewrite E1. clear E1.
    pose proof (rsum_map_mul_l RRing (-1)%R (fun p => @rsum RRing (map (fun j => hsq H (Q j p)) (zrange k))) (zrange n)) as E2.
    cbn [cmul RRing] in E2. cbn [car RRing] in *. rewrite E2. clear E2.
    pose proof (rsum_swap RRing (fun p j => hsq H (Q j p)) (zrange n) (zrange k)) as E3. cbn [car RRing] in *. rewrite E3. clear E3.
    rewrite rs_const by assumption.
    match goal with |- (_ + _ * ?S)%R = _ => assert (E4 : S = IZR k); [|rewrite E4; ring] end.
    transitivity (@rsum RRing (map (fun _ : Z => 1%R) (zrange k))); [|rewrite rs_const by assumption; apply Rmult_1_r].
    f_equal. apply map_ext_in. intros j Hj. apply in_zrange in Hj. apply (hinj_eq H).
    change (@rsum RRing (map (fun p => hsq H (Q j p)) (zrange n))) with (len2 H n (Q j)).
    rewrite ip_len2, O, Z.eqb_refl by assumption. symmetry. apply hinj_1.
Qed.
Lemma orthonormal_le n k Q : 0 <= n -> 0 <= k -> orthonormal H n k Q -> k <= n.
Proof.
  intros Hn Hk O. pose proof (bessel n k Q Hn Hk O) as E.
  pose proof (rs_nonneg (fun p => len2 H n (resid n k Q (unitv p))) (zrange n) (fun p _ => len2_pos _ _)) as P.
  cbn [car RRing] in *. rewrite E in P. apply le_IZR. lra.
Qed.
(* the columns of a square matrix with orthonormal rows *)
Lemma orthonormal_square n Q : 0 <= n -> orthonormal H n n Q -> orthonormal H n n (fun p j => conj (Q j p)).
Proof.
  intros Hn O p q Hp Hq.
  pose proof (bessel n n Q Hn Hn O) as E. replace (IZR n - IZR n)%R with 0%R in E by ring.
  pose proof (rs_zero (fun p => len2 H n (resid n n Q (unitv p))) (zrange n) (fun p _ => len2_pos _ _) E q (proj2 (in_zrange n q) Hq)) as E1.
  pose proof (len2_0 n _ E1 p Hp) as E2. unfold leftover in E2.
  assert (E3 : unitv q p = comb H n (fun j => ip H n (Q j) (unitv q)) Q p).
  { replace (unitv q p) with (cadd (csub (unitv q p) (comb H n (fun j => ip H n (Q j) (unitv q)) Q p)) (comb H n (fun j => ip H n (Q j) (unitv q)) Q p)) by ring.
    rewrite E2. ring. }
  unfold unitv in E3 at 1. rewrite E3. unfold ip at 1, comb. apply rsum_ext. intros j _. rewrite ip_unit, hconj_conj by assumption. ring.
Qed.

(* ---- spans ---- *)
Notation in_span := (spanned H).
Lemma span_elem n m F i : 0 <= i < m -> in_span n m F (F i).
Proof.
  intro Hi. exists (fun j => if i =? j then c1 else c0). intros p Hp. unfold comb.
  rewrite (rsum_ext A _ (fun j => if i =? j then F j p else c0)); [now rewrite rsum_zif|]. intros j _. destruct (i =? j); ring.
Qed.
Lemma span_scale n m F c v : in_span n m F v -> in_span n m F (fun p => cmul c (v p)).
Proof.
  intros (d & E). exists (fun j => cmul c (d j)). intros p Hp. rewrite E by assumption. unfold comb. rewrite <- rsum_map_mul_l.
  apply rsum_ext. intros; ring.
Qed.
Lemma span_sub n m F u v : in_span n m F u -> in_span n m F v -> in_span n m F (fun p => csub (u p) (v p)).
Proof.
  intros (d & E) (d' & E'). exists (fun j => csub (d j) (d' j)). intros p Hp. rewrite E, E' by assumption. unfold comb.
  rewrite (rsum_ext A (fun j => cmul (csub (d j) (d' j)) (F j p)) (fun j => cadd (cmul (d j) (F j p)) (cmul (copp c1) (cmul (d' j) (F j p))))) by (intros; ring).
  rewrite rsum_map_add, rsum_map_mul_l. ring.
Qed.
Lemma span_comb n m F k c Q : 0 <= k -> (forall j, 0 <= j < k -> in_span n m F (Q j)) -> in_span n m F (comb H k c Q).
Proof.
  intro Hk. pattern k. apply natlike_ind; auto; clear k Hk.
  - intros _. exists (fun _ => c0). intros p _. unfold comb. cbn. rewrite rsum_nil. symmetry. apply rsum_zero. intros; ring.
  - intros k Hk IH K. rewrite <- Z.add_1_r in *.
    destruct (IH ltac:(intros; apply K; lia)) as (d & E). destruct (K k ltac:(lia)) as (d' & E').
    exists (fun j => cadd (d j) (cmul (c k) (d' j))). intros p Hp. unfold comb at 1. rewrite zrange_snoc, map_app, rsum_app by assumption.
    cbn [map]. rewrite rsum_cons, rsum_nil. fold (comb H k c Q p). rewrite E, E' by assumption. unfold comb.
    rewrite (rsum_ext A (fun j => cmul (cadd (d j) (cmul (c k) (d' j))) (F j p)) (fun j => cadd (cmul (d j) (F j p)) (cmul (c k) (cmul (d' j) (F j p))))) by (intros; ring).
    rewrite rsum_map_add, rsum_map_mul_l. ring.
Qed.
Lemma span_ext n m F u v : in_span n m F u -> (forall p, 0 <= p < n -> u p = v p) -> in_span n m F v.
Proof. intros (d & E) K. exists d. intros p Hp. rewrite <- K by assumption. auto. Qed.
End Herm.
