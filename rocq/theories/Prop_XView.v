(* Prop_XView.v -- C175-C178: views of float memory with any number of axes. *)
From Coq Require Import ZArith List Bool Lia.
Import ListNotations.
From Verif Require Import Base BaseFacts Model_Index Model_View Model_Tensor Model_Groups Model_Shape Model_XView Spec_Index Spec_Shape Spec_XView
  Proofs_Index Proofs_Shape Proofs_Shape3 Proofs_XView Proofs_XView2.
Local Open Scope Z_scope.

(* ---- C175.  xcell v ix is the address of element ix (Spec_XView); replaced m b a x m' says that m' is m with x at address a of
   block b. ---- *)
Section C175.
Context {R : cring}.
Notation memR := (mem (car R)).
(* the index may have fewer entries than the view has axes *)
Theorem C175_get rc v ix (m : memR) a : in_range ix (firstn (length ix) (vdims v)) -> (length ix <= length (vstr v))%nat ->
  m (vblk v) (xcell v ix) = Some a -> xv_get rc v ix m = Ok a.
Proof. apply get_ok. Qed.
Theorem C175_set rc v ix (m : memR) a x : in_range ix (firstn (length ix) (vdims v)) -> (length ix <= length (vstr v))%nat ->
  m (vblk v) (xcell v ix) = Some a ->
  (exists m', xv_set rc v ix x m = Ok m' /\ replaced m (vblk v) (xcell v ix) x m') /\
  (exists m', xv_inc rc v ix x m = Ok m' /\ replaced m (vblk v) (xcell v ix) (cadd a x) m').
Proof. intros I L M. split; [now apply (set_ok rc v ix m a x)|now apply (inc_ok rc v ix m a x)]. Qed.
Theorem C175_refused v ix (m : memR) x : (length ix <= length (vdims v))%nat -> ~ in_range ix (firstn (length ix) (vdims v)) ->
  xv_get true v ix m = Throw /\ xv_set true v ix x m = Throw /\ xv_inc true v ix x m = Throw.
Proof. intros L N. unfold xv_get, xv_set, xv_inc. rewrite check_throw by assumption. auto. Qed.
Theorem C175_complex_refused v co ix (m : memR) x : (length ix <= length (vdims v))%nat -> ~ in_range ix (firstn (length ix) (vdims v)) ->
  xc_get true v co ix m = Throw /\ xc_set true v co ix x m = Throw /\ xc_inc true v co ix x m = Throw.
Proof. intros L N. unfold xc_get, xc_set, xc_inc. rewrite check_throw by assumption. auto. Qed.
(* an index with too few entries is not refused: the missing entries count as 0 *)
Theorem C175_short_refuted rc v ix k (m : memR) : (length ix + k = length (vdims v))%nat -> length (vstr v) = length (vdims v) -> positive (vdims v) ->
  in_range ix (firstn (length ix) (vdims v)) -> xv_get rc v ix m = xv_get rc v (ix ++ repeat 0 k) m.
Proof.
  intros E L P I. unfold xv_get. rewrite check_pass by assumption. rewrite check_full.
  - cbn [bind]. rewrite !gs_offs_ok by (rewrite ?app_length, ?repeat_length; lia). cbn [bind]. f_equal. f_equal.
    rewrite <- (firstn_skipn (length ix) (vstr v)). rewrite place_app1, place_app by (rewrite firstn_length; lia).
    replace (place (skipn (length ix) (vstr v)) (repeat 0 k)) with 0; [lia|]. symmetry. generalize (skipn (length ix) (vstr v)) as s. clear. induction k as [|k IH]; intros [|x s]; cbn [repeat]; try reflexivity.
    rewrite place_cons, IH. lia.
  - rewrite <- (firstn_skipn (length ix) (vdims v)). apply Forall2_app; [exact I|]. assert (Q : positive (skipn (length ix) (vdims v))).
    { apply Forall_forall. intros x J. revert P. rewrite <- (firstn_skipn (length ix) (vdims v)) at 1. unfold positive. rewrite Forall_app. intros (_ & P). rewrite Forall_forall in P. auto. }
    assert (K : length (skipn (length ix) (vdims v)) = k) by (rewrite skipn_length; lia). revert K Q. generalize (skipn (length ix) (vdims v)) as d. clear. induction k as [|k IH]; intros [|x d] K Q; try discriminate; cbn [repeat]; [constructor|].
    inversion Q; subst. constructor; [lia|]. apply IH; auto.
Qed.
Theorem C175_complex_get chk rc v co ix (m : memR) a b : m (vblk v) (xcell v ix) = Some a -> m (vblk v) (xcell v ix + co) = Some b ->
  (in_range ix (firstn (length ix) (vdims v)) -> (length ix <= length (vstr v))%nat -> xc_get rc v co ix m = Ok (a, b)) /\
  (in_range ix (vdims v) -> length (vstr v) = length (vdims v) -> xc_get_ix chk rc v co ix m = Ok (a, b)).
Proof. intros M N. split; intros I L; [now apply xc_get_ok|now apply xc_get_ix_ok]. Qed.
Theorem C175_complex_set rc v co ix (m : memR) a b x : co <> 0 -> in_range ix (firstn (length ix) (vdims v)) -> (length ix <= length (vstr v))%nat ->
  m (vblk v) (xcell v ix) = Some a -> m (vblk v) (xcell v ix + co) = Some b ->
  ((length ix <= 3)%nat -> exists m', xc_set rc v co ix x m = Ok m' /\ replaced2 m (vblk v) (xcell v ix) (xcell v ix + co) (fst x) (snd x) m') /\
  (exists m', xc_inc rc v co ix x m = Ok m' /\ replaced2 m (vblk v) (xcell v ix) (xcell v ix + co) (cadd a (fst x)) (cadd b (snd x)) m').
Proof. intros C I L M N. split; [intro T; now apply (xc_set_ok rc v co ix m a b x)|now apply xc_inc_ok]. Qed.
(* with four indices the number is stored in the element whose last index is 0, and the named element keeps its value *)
Theorem C175_four_indices_refuted rc v co i0 i1 i2 i3 (m : memR) a b x : co <> 0 -> in_range [i0; i1; i2; i3] (firstn 4 (vdims v)) -> (4 <= length (vstr v))%nat ->
  m (vblk v) (xcell v [i0; i1; i2; 0]) = Some a -> m (vblk v) (xcell v [i0; i1; i2; 0] + co) = Some b ->
  exists m', xc_set rc v co [i0; i1; i2; i3] x m = Ok m' /\ replaced2 m (vblk v) (xcell v [i0; i1; i2; 0]) (xcell v [i0; i1; i2; 0] + co) (fst x) (snd x) m'.
Proof. apply xc_set_four. Qed.
End C175.
Example C175_case : let v := View 0 3 [2; 3] [6; 2] in let m := fun b a : Z => if (b =? 0) && (0 <=? a) && (a <? 20) then Some (10 * a) else None in
  in_range [1; 2] (vdims v) /\ xv_get (R := ZRing) true v [1; 2] m = Ok 130 /\ xc_get (R := ZRing) true v 1 [1; 2] m = Ok (130, 140) /\ xv_get (R := ZRing) true v [1; 3] m = Throw /\
  xv_get (R := ZRing) true v [1] m = Ok 90.
Proof. split; [repeat constructor; lia|]. repeat split. Qed.
Print Assumptions C175_get.
Print Assumptions C175_set.
Print Assumptions C175_refused.
Print Assumptions C175_complex_refused.
Print Assumptions C175_short_refuted.
Print Assumptions C175_complex_get.
Print Assumptions C175_complex_set.
Print Assumptions C175_four_indices_refuted.

(* ---- C176 ---- *)
(* a slice is right when the axis has a stride equal to its side, or the position is 0 *)
Theorem C176_slice chk rc v p n r q s t i : vdims v = p ++ n :: r -> vstr v = q ++ s :: t -> length q = length p -> q ++ t <> [] -> (rc = true -> 0 <= i < n) -> i = 0 \/ n = s ->
  exists w, xv_slice chk rc (zlen p) i v = Ok w /\ vblk w = vblk v /\ vdims w = p ++ r /\ length (vstr w) = length (q ++ t) /\
    forall ip ir, length ip = length p -> xcell w (ip ++ ir) = xcell v (ip ++ i :: ir).
Proof.
  intros D S L Ne H E. destruct (slice_ok chk rc v p n r q s t i D S L Ne H) as (w & A & B & C & F & G). exists w. repeat split; auto; [now rewrite F|]. intros ip ir K. rewrite (G ip ir K). nia.
Qed.
(* otherwise every one of its elements is misplaced *)
Theorem C176_slice_refuted chk rc v p n r q s t i : vdims v = p ++ n :: r -> vstr v = q ++ s :: t -> length q = length p -> q ++ t <> [] -> (rc = true -> 0 <= i < n) -> i <> 0 -> n <> s ->
  exists w, xv_slice chk rc (zlen p) i v = Ok w /\ forall ip ir, length ip = length p -> xcell w (ip ++ ir) <> xcell v (ip ++ i :: ir).
Proof.
  intros D S L Ne H E F. destruct (slice_ok chk rc v p n r q s t i D S L Ne H) as (w & A & _ & _ & _ & G). exists w. split; [exact A|]. intros ip ir K. rewrite (G ip ir K). nia.
Qed.
(* the slices of a vector have a stride but no side *)
Theorem C176_vector_refuted chk rc v n s i : vdims v = [n] -> vstr v = [s] -> (rc = true -> 0 <= i < n) -> exists w, xv_slice chk rc 0 i v = Ok w /\ vdims w = [] /\ vstr w = [1].
Proof. intros D S H. eexists. split; [now apply (slice_one chk rc v n s i)|]. auto. Qed.
Theorem C176_slice_range chk v p n r i : vdims v = p ++ n :: r -> ~ (0 <= i < n) -> xv_slice chk true (zlen p) i v = Throw.
Proof. apply slice_throw. Qed.
Theorem C176_slice_rank chk v k i : zlen (vdims v) <= k -> xv_slice chk true k i v = Throw.
Proof. apply slice_few. Qed.
(* fixing the first two or three indices: place p ix takes the sides for strides *)
Theorem C176_front rc v ix p r q t : vdims v = p ++ r -> vstr v = q ++ t -> length p = length ix -> length q = length ix -> (rc = true -> in_range ix p) ->
  exists w, xv_slice_front rc ix v = Ok w /\ vblk w = vblk v /\ vdims w = r /\ length (vstr w) = length t /\
    (place p ix = place q ix -> forall ir, xcell w ir = xcell v (ix ++ ir)) /\ (place p ix <> place q ix -> forall ir, xcell w ir <> xcell v (ix ++ ir)).
Proof.
  intros D S Lp Lq H. destruct (slice_front_ok rc v ix p r q t D S Lp Lq H) as (w & A & B & C & F & G). exists w. repeat split; auto; [now rewrite F| |]; intros E ir; rewrite G; lia.
Qed.
Theorem C176_front_refused v ix : (zlen (vdims v) < zlen ix -> xv_slice_front true ix v = Throw) /\
  ((length ix <= length (vdims v))%nat -> ~ in_range ix (firstn (length ix) (vdims v)) -> xv_slice_front true ix v = Throw).
Proof.
  split.
  - intro L. unfold xv_slice_front, xv_least. cbv zeta. replace (zlen (vdims v) <? zlen ix) with true by lia. now rewrite orb_true_r.
  - intros L N. unfold xv_slice_front. cbv zeta. unfold xv_least. assert (G : (zlen (vdims v) <? zlen ix) = false) by (apply Z.ltb_ge; lia). assert (G0 : (zlen ix <? 0) = false) by (apply Z.ltb_ge; lia). rewrite G, G0. cbn [orb andb].
    assert (E : foldM (fun j (_ : unit) => do i <- zget ix j; xv_check1 true (vdims v) j i) (zrange (zlen ix)) tt = Throw); [|now rewrite E].
    clear G G0. revert N L. generalize (vdims v) as d. clear v. induction ix as [|i ix IH]; intros d N L. { exfalso. apply N. constructor. }
    destruct d as [|n d]; [cbn in L; lia|]. rewrite zrange_cons by (cbn [length]; lia). replace (zlen (i :: ix) - 1) with (zlen ix) by (cbn [length]; lia). cbn [foldM]. change (zget (i :: ix) 0) with (Ok i). cbn [bind]. unfold xv_check1 at 1. cbn [negb].
    destruct (i <? 0) eqn:I0; [reflexivity|]. change (zget (n :: d) 0) with (Ok n). cbn [bind]. destruct (n <=? i) eqn:I1; [reflexivity|]. cbn [bind].
    rewrite foldM_map. rewrite (foldM_ext _ (fun j (_ : unit) => do i <- zget ix j; xv_check1 true d j i)).
    + apply IH; [|cbn in L; lia]. intro F. apply N. cbn [length firstn]. constructor; [lia|exact F].
    + intros j u J. apply in_zrange in J. rewrite zget_cons by lia. unfold xv_check1. cbn [negb]. destruct (zget ix j); cbn [bind]; auto. destruct (a <? 0); auto. now rewrite zget_cons by lia.
Qed.
(* so fixing the row of a row-major matrix with sides a and b picks the row only if a = b or the row is the first *)
Theorem C176_matrix_row_refuted chk rc b0 o a b i : a <> b -> 0 < i < a -> exists w, xv_slice chk rc 0 i (View b0 o [a; b] [b; 1]) = Ok w /\ vdims w = [b] /\ forall j, xcell w [j] = o + i * a + j /\ xcell w [j] <> o + i * b + j.
Proof.
  intros N I. destruct (slice_ok chk rc (View b0 o [a; b] [b; 1]) [] a [b] [] b [1] i eq_refl eq_refl eq_refl ltac:(discriminate) ltac:(intro; lia)) as (w & A & B & C & D & G). exists w. split; [exact A|]. split; [exact C|].
  intro j. specialize (G [] [j] eq_refl). cbn [app] in G. rewrite G. unfold xcell. cbn [voff vstr]. rewrite !place_cons, place_nil_r. split; [ring|]. nia.
Qed.
Example C176_case : xv_slice true true 1 2 (View 0 0 [2; 3; 4] [12; 3; 1]) = Ok (View 0 6 [2; 4] [12; 1]) /\ xv_slice true true 1 2 (View 0 0 [2; 3; 4] [12; 4; 1]) = Ok (View 0 6 [2; 4] [12; 1]) /\
  xv_slice_front true [1; 2] (View 0 0 [2; 3; 4] [12; 4; 1]) = Ok (View 0 8 [4] [1]).
Proof. repeat split. Qed.
Print Assumptions C176_slice.
Print Assumptions C176_slice_refuted.
Print Assumptions C176_vector_refuted.
Print Assumptions C176_slice_range.
Print Assumptions C176_slice_rank.
Print Assumptions C176_front.
Print Assumptions C176_front_refused.
Print Assumptions C176_matrix_row_refuted.

(* ---- C177 ---- *)
(* axes whose strides fit are fused: element x*b+y of the new axis is element (x,y) of the two old ones *)
Theorem C177_fuse chk rc v p a b r q s t u : vdims v = p ++ a :: b :: r -> vstr v = q ++ s :: t :: u -> length q = length p -> s = t * b ->
  exists w, xv_fuse chk rc (zlen p) v = Ok w /\ xv_fuse chk rc (- 2 - zlen r) v = Ok w /\ xv_fuse2 chk rc (zlen p) v = Ok w /\ vblk w = vblk v /\ vdims w = p ++ a * b :: r /\
    forall ip x y ir, length ip = length p -> xcell w (ip ++ x * b + y :: ir) = xcell v (ip ++ x :: y :: ir).
Proof.
  intros D S L E. destruct (fuse_ok chk rc v p a b r q s t u D S L) as (A & B & C). eexists. split; [exact A|]. split; [exact B|]. split; [exact C|]. cbn [vblk vdims]. split; [reflexivity|]. split; [reflexivity|].
  intros ip x y ir K. unfold xcell. cbn [voff vstr]. rewrite S. f_equal. apply fuse_cell; [exact E|lia].
Qed.
Theorem C177_fuse01_12 chk rc v : (forall a b r, vdims v = a :: b :: r -> forall s t u, vstr v = s :: t :: u -> s = t * b -> exists w, xv_fuse01 chk rc v = Ok w /\ vdims w = a * b :: r /\
     forall x y ir, xcell w (x * b + y :: ir) = xcell v (x :: y :: ir)) /\
  (forall c a b r, vdims v = c :: a :: b :: r -> forall o s t u, vstr v = o :: s :: t :: u -> s = t * b -> exists w, xv_fuse12 chk rc v = Ok w /\ vdims w = c :: a * b :: r /\
     forall z x y ir, xcell w (z :: x * b + y :: ir) = xcell v (z :: x :: y :: ir)).
Proof.
  split.
  - intros a b r D s t u S E. destruct (C177_fuse chk rc v [] a b r [] s t u D S eq_refl E) as (w & _ & _ & A & _ & B & C). exists w. split; [exact A|]. split; [exact B|]. intros x y ir. apply (C [] x y ir eq_refl).
  - intros c a b r D o s t u S E. destruct (C177_fuse chk rc v [c] a b r [o] s t u D S eq_refl E) as (w & _ & _ & A & _ & B & C). exists w. split; [exact A|]. split; [exact B|]. intros z x y ir. apply (C [z] x y ir eq_refl).
Qed.
(* fuse23 multiplies side 2 by side 1 instead of side 3 *)
Theorem C177_fuse23_refuted chk rc v a b c d r s0 s1 s2 s3 u : vdims v = a :: b :: c :: d :: r -> vstr v = s0 :: s1 :: s2 :: s3 :: u -> c <> 0 -> b <> d ->
  exists w, xv_fuse23 chk rc v = Ok w /\ vdims w = a :: b :: c * b :: r /\ vdims w <> a :: b :: c * d :: r.
Proof. intros D S C B. eexists. split; [now apply (fuse23_ok chk rc v a b c d r s0 s1 s2 s3 u)|]. cbn [vdims]. split; [reflexivity|]. intro E. injection E as E. nia. Qed.
(* when the two sides happen to agree it is right *)
Theorem C177_fuse23 chk rc v a b c r s0 s1 s2 s3 u : vdims v = a :: b :: c :: b :: r -> vstr v = s0 :: s1 :: s2 :: s3 :: u -> s2 = s3 * b ->
  exists w, xv_fuse23 chk rc v = Ok w /\ vdims w = a :: b :: c * b :: r /\ forall i j x y ir, xcell w (i :: j :: x * b + y :: ir) = xcell v (i :: j :: x :: y :: ir).
Proof.
  intros D S E. eexists. split; [now apply (fuse23_ok chk rc v a b c b r s0 s1 s2 s3 u)|]. cbn [vdims]. split; [reflexivity|]. intros. unfold xcell. cbn [voff vstr]. rewrite S.
  pose proof (fuse_cell [s0; s1] s2 s3 u b [i; j] x y ir E eq_refl) as F. cbn [app] in F. now rewrite F.
Qed.
Theorem C177_fuse_front chk rc v p a b q x s t : vdims v = p ++ [a; b] -> vstr v = q ++ [x; s; t] -> run (q ++ [x]) p ->
  exists w, xv_fuse_front chk rc v = Ok w /\ vblk w = vblk v /\ vdims w = [prod p; a; b] /\ forall ip j k, in_range ip p -> xcell w [flat ip p; j; k] = xcell v (ip ++ [j; k]).
Proof.
  intros D S E. eexists. split; [apply (fuse_front_ok chk rc v p a b q x s t D S)|]. { apply run_length in E. rewrite app_length in E. cbn [length] in E. lia. }
  cbn [vblk vdims]. split; [reflexivity|]. split; [reflexivity|]. intros ip j k I. unfold xcell. cbn [voff vstr]. rewrite S. f_equal. now apply fuse_front_cell.
Qed.
(* matricize(n): the leading axes can be walked as one, the others are row-major *)
Theorem C177_matricize rc v p r q x u : vdims v = p ++ r -> vstr v = q ++ x :: u -> run (q ++ [x]) p -> gs_new true r 1 = Ok u ->
  exists w, xv_matricize rc (zlen p) v = Ok w /\ vblk w = vblk v /\ vdims w = [prod p; prod r] /\ forall ip ir, in_range ip p -> in_range ir r -> xcell w [flat ip p; flat ir r] = xcell v (ip ++ ir).
Proof.
  intros D S E U. assert (Nr : r <> []) by (intros ->; discriminate). rewrite gs_new_ok in U by assumption. injection U as U. pose proof (run_length _ _ E) as L. rewrite app_length in L. cbn [length] in L.
  eexists. split; [apply (matricize_ok rc v p r q x u D S); [lia|auto]|]. cbn [vblk vdims]. split; [reflexivity|]. split; [reflexivity|]. intros ip ir I J. unfold xcell. cbn [voff vstr]. rewrite S. f_equal. now apply matricize_cell.
Qed.
(* a matrix whose columns are not adjacent is misread *)
Theorem C177_matricize_refuted rc b0 o a b s t : t <> 1 -> exists w, xv_matricize rc 1 (View b0 o [a; b] [s; t]) = Ok w /\ vdims w = [a; b] /\ xcell w [0; 1] <> xcell (View b0 o [a; b] [s; t]) [0; 1].
Proof.
  intro T. eexists. split; [apply (matricize_ok rc (View b0 o [a; b] [s; t]) [a] [b] [] s [t] eq_refl eq_refl eq_refl ltac:(discriminate))|]. cbn [vdims]. split; [unfold prod; cbn [fold_right]; now rewrite !Z.mul_1_r|].
  unfold xcell. cbn [voff vstr]. rewrite !place_cons, !place_nil_r. lia.
Qed.
Theorem C177_matricize_zero_refuted rc v : vdims v <> [] -> xv_matricize rc 0 v = UB.
Proof. apply matricize_zero. Qed.
(* when ranges are checked, tensors with too few axes are refused *)
Theorem C177_rank chk v n : zlen (vdims v) < n ->
  (forall i, i + 2 = n -> 0 <= i -> xv_fuse chk true i v = Throw /\ xv_fuse2 chk true i v = Throw) /\ (n = 4 -> xv_fuse23 chk true v = Throw) /\ (n = 3 -> xv_fuse_front chk true v = Throw) /\
  (forall i, i + 1 = n -> xv_matricize true i v = Throw).
Proof.
  intro L. assert (E : forall A (k : res A), xv_least true n v k = Throw) by (intros; unfold xv_least; replace (zlen (vdims v) <? n) with true by lia; now rewrite orb_true_r). split; [|split; [|split]].
  - intros i <- I. unfold xv_fuse, xv_fuse2. replace (i <? 0) with false by lia. cbv zeta. now rewrite !E.
  - intros ->. apply E.
  - intros ->. apply E.
  - intros i <-. apply E.
Qed.
Theorem C177_view rc v : length (vstr v) = length (vdims v) -> xv_view rc (zlen (vdims v)) v = Ok v /\ forall k, zlen (vdims v) <> k -> xv_view true k v = Throw.
Proof. intro L. split; [now apply view_ok|]. intros k K. now apply view_throw. Qed.
(* flatten: a vector is returned as it is; anything else is refused when ranges are checked *)
Theorem C177_flatten rc v n s : vdims v = [n] -> vstr v = [s] -> exists w, xv_flatten rc v = Ok w /\ vdims w = [n] /\ vblk w = vblk v /\ forall i, xcell w [i] = xcell v [i].
Proof.
  intros D S. eexists. split; [apply (flatten_ok rc v [] s [n] D S); reflexivity|]. cbn [vdims vblk]. split; [unfold prod; cbn [fold_right]; now rewrite Z.mul_1_r|]. split; [reflexivity|]. intro i. unfold xcell. now rewrite S.
Qed.
Theorem C177_flatten_refuted v : length (vdims v) <> 1%nat -> xv_flatten true v = Throw.
Proof. apply flatten_throw. Qed.
(* without the check it would work for every tensor that can be walked as one axis *)
Theorem C177_flatten_unchecked v p q x : vdims v = p -> vstr v = q ++ [x] -> run (q ++ [x]) p ->
  exists w, xv_flatten false v = Ok w /\ vdims w = [prod p] /\ forall ip, in_range ip p -> xcell w [flat ip p] = xcell v ip.
Proof.
  intros D S E. eexists. split; [apply (flatten_ok false v q x p D S); discriminate|]. cbn [vdims]. split; [reflexivity|]. intros ip I. unfold xcell. cbn [voff vstr]. rewrite S.
  pose proof (fuse_place [] q x [] p [] ip [] E eq_refl I) as F. cbn [app] in F. rewrite !app_nil_r in F. now rewrite F.
Qed.
Example C177_case : xv_fuse true true 1 (View 0 0 [2; 3; 4] [12; 4; 1]) = Ok (View 0 0 [2; 12] [12; 1]) /\ xv_fuse true true (-2) (View 0 0 [2; 3; 4] [12; 4; 1]) = Ok (View 0 0 [2; 12] [12; 1]) /\
  xv_fuse23 true true (View 0 0 [2; 3; 4; 5] [60; 20; 5; 1]) = Ok (View 0 0 [2; 3; 12] [60; 20; 1]) /\ xv_matricize true 2 (View 0 0 [2; 3; 4] [12; 4; 1]) = Ok (View 0 0 [6; 4] [4; 1]) /\
  run [12; 4] [2; 3] /\ xv_fuse_front true true (View 0 0 [2; 3; 4; 5] [60; 20; 5; 1]) = Ok (View 0 0 [6; 4; 5] [20; 5; 1]).
Proof. repeat split. Qed.
Print Assumptions C177_fuse.
Print Assumptions C177_fuse01_12.
Print Assumptions C177_fuse23_refuted.
Print Assumptions C177_fuse23.
Print Assumptions C177_fuse_front.
Print Assumptions C177_matricize.
Print Assumptions C177_matricize_refuted.
Print Assumptions C177_matricize_zero_refuted.
Print Assumptions C177_rank.
Print Assumptions C177_view.
Print Assumptions C177_flatten.
Print Assumptions C177_flatten_refuted.
Print Assumptions C177_flatten_unchecked.

(* ---- C178 ---- *)
Theorem C178_as_real v : length (vstr v) = length (vdims v) -> exists w, xc_as_real v 1 = Ok w /\ vblk w = vblk v /\ vdims w = vdims v ++ [2] /\
  forall ix, length ix = length (vdims v) -> xcell w (ix ++ [0]) = xcell v ix /\ xcell w (ix ++ [1]) = xcell v ix + 1.
Proof.
  intro L. eexists. split; [reflexivity|]. split; [reflexivity|]. split; [reflexivity|]. intros ix K. unfold xcell, gs_append. cbn [voff vstr]. rewrite !place_app by lia. cbn [combine map fst snd fold_right place]. unfold place; cbn. split; lia.
Qed.
Theorem C178_as_real_refused v co : co <> 1 -> xc_as_real v co = Throw.
Proof. intro H. unfold xc_as_real. now replace (co =? 1) with false by lia. Qed.
Section C178.
Context {R : cring}.
Notation memR := (mem (car R)).
(* gtensor of a view with row-major strides lists the elements in row-major order; f k is the number stored as the element of rank k *)
Theorem C178_gtensor chk rc v co (m : memR) f : positive (vdims v) -> vdims v <> [] -> gs_new true (vdims v) 1 = Ok (vstr v) ->
  (forall ix, in_range ix (vdims v) -> m (vblk v) (xcell v ix) = Some (fst (f (flat ix (vdims v)))) /\ m (vblk v) (xcell v ix + co) = Some (snd (f (flat ix (vdims v))))) ->
  xc_gtensor chk rc v co m = Ok (map f (zrange (prod (vdims v)))).
Proof.
  intros P N E H. rewrite gs_new_ok in E by assumption. injection E as E. rewrite (gtensor_base chk rc v co m 1 f) by (auto; lia). f_equal. apply map_ext. intro i. now rewrite Z.div_1_r.
Qed.
(* for real and imaginary parts stored side by side (strides twice the row-major ones) entry i is the element of rank i/2 *)
Theorem C178_interleaved_refuted chk rc v (m : memR) f : positive (vdims v) -> vdims v <> [] -> gs_new true (vdims v) 2 = Ok (vstr v) ->
  (forall ix, in_range ix (vdims v) -> m (vblk v) (xcell v ix) = Some (fst (f (flat ix (vdims v)))) /\ m (vblk v) (xcell v ix + 1) = Some (snd (f (flat ix (vdims v))))) ->
  xc_gtensor chk rc v 1 m = Ok (map (fun i => f (i / 2)) (zrange (prod (vdims v)))).
Proof. intros P N E H. rewrite gs_new_ok in E by assumption. injection E as E. apply (gtensor_base chk rc v 1 m 2 f); auto; lia. Qed.
Theorem C178_scalar_refuted chk rc b o co (m : memR) : xc_gtensor chk rc (View b o [] []) co m = UB.
Proof. reflexivity. Qed.
End C178.
Example C178_case : let v := View 0 0 [2; 2] [2; 1] in let m := fun b a : Z => if (b =? 0) && (0 <=? a) && (a <? 8) then Some (10 * a) else None in
  xc_gtensor (R := ZRing) true true v 4 m = Ok [(0, 40); (10, 50); (20, 60); (30, 70)] /\
  xc_gtensor (R := ZRing) true true (View 0 0 [2; 2] [4; 2]) 1 m = Ok [(0, 10); (0, 10); (20, 30); (20, 30)] /\ gs_new true [2; 2] 2 = Ok [4; 2].
Proof. repeat split. Qed.
Print Assumptions C178_as_real.
Print Assumptions C178_as_real_refused.
Print Assumptions C178_gtensor.
Print Assumptions C178_interleaved_refuted.
Print Assumptions C178_scalar_refuted.
