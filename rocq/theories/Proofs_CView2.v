(* Proofs_CView2.v -- addition, assignment and products of complex views. *)
From Verif Require Import Base BaseFacts Model_Index Model_View Model_Tensor Model_Ops Model_RView Model_CView Spec_Index Spec_View Spec_Tensor Spec_RView Spec_CView
  Proofs_Axes Proofs_Index Proofs_View Proofs_Tensor Proofs_Tensor2 Proofs_Tensor3 Proofs_Convolve2 Proofs_Ops2 Proofs_Ops3 Proofs_RView Proofs_RView2 Proofs_RView3 Proofs_RView4 Proofs_RView5 Proofs_RView6 Proofs_CView.
Local Open Scope Z_scope.

Section Cx.
Context {R : cring}.
Add Ring RrCV2 : (cth R).
Notation memR := (mem (car R)).
Notation C := (CxRing R).
Add Ring RcCV2 : (cth C).
Implicit Types (v w r x y : view) (m : memR) (M : list Z -> R).

Lemma cacc r dims (T : list Z -> memR -> res C) g m : cshape r dims -> distinct_cells r -> readable m r ->
  (forall ix m', in_range ix dims -> quiet m m' r ix -> T ix m' = Ok (g ix)) ->
  exists m', foldM (fun ix m => do t <- T ix m; cinc r ix t m) (all_indices dims) m = Ok m' /\ cgains r dims g m m'.
Proof. intros S Hd Rr H. apply (cloop (cinc r) cadd T g r dims m S Hd Rr); [|exact H]. intros M m1 ix Hix B. now apply (cinc_becomes m m1 r dims). Qed.
Lemma cset r dims (T : list Z -> memR -> res C) g m : cshape r dims -> distinct_cells r -> readable m r ->
  (forall ix m', in_range ix dims -> quiet m m' r ix -> T ix m' = Ok (g ix)) ->
  exists m', foldM (fun ix m => do t <- T ix m; cput r ix t m) (all_indices dims) m = Ok m' /\ cbecomes r dims g m m'.
Proof. intros S Hd Rr H. apply (cloop (cput r) (fun _ t => t) T g r dims m S Hd Rr); [|exact H]. intros M m1 ix Hix B. now apply (cput_becomes m m1 r dims). Qed.

(* elements of the arguments are the old ones *)
Lemma quiet_untouched m m' r ix : quiet m m' r ix -> untouched m m' r.
Proof. intros Q b a H. apply Q. intros jx Hj Ej. exfalso. now apply (H jx Hj). Qed.
Lemma cget_keep r x dims m m' ix jx : cshape x dims -> readable m x -> disjoint_views r x -> quiet m m' r ix -> in_range jx dims -> cget x jx m' = Ok (celem m x jx).
Proof.
  intros [W D] Rx B Q Hj. apply quiet_untouched in Q. rewrite (cget_ok m' x dims) by (try split; try assumption; eapply keep_readable; eassumption).
  unfold celem. f_equal. f_equal; apply (keep_elem0 r x m m'); try assumption; rewrite D; apply in_range_snoc; try assumption; lia.
Qed.
Lemma get_keep r x m m' ix jx : vwf x -> readable m x -> disjoint_views r x -> quiet m m' r ix -> in_range jx (vdims x) -> get_at x jx m' = Ok (elem0 m x jx).
Proof. intros W Rx B Q Hj. apply quiet_untouched in Q. now apply (keep_get r x m m'). Qed.
Lemma cget_zip r x dims m m' ix : cshape r dims -> cshape x dims -> readable m x -> no_clobber r x -> quiet m m' r ix -> in_range ix dims -> cget x ix m' = Ok (celem m x ix).
Proof.
  intros [Wr Dr] [W D] Rx Nc Q Hix.
  assert (K : forall k, 0 <= k < 2 -> elem m' x (ix ++ [k]) = elem m x (ix ++ [k])).
  { intros k Hk. assert (I : in_range (ix ++ [k]) (vdims x)) by (rewrite D; now apply in_range_snoc). unfold elem. destruct (vaddr x (ix ++ [k])) as [[b a]| |] eqn:E; try reflexivity.
    apply Q. intros jx Hj Ej. assert (jx = ix ++ [k]) as -> by (apply Nc; try assumption; congruence). apply removelast_last. }
  assert (G : forall k, 0 <= k < 2 -> get_at x (ix ++ [k]) m' = Ok (elem0 m x (ix ++ [k]))).
  { intros k Hk. assert (I : in_range (ix ++ [k]) (vdims x)) by (rewrite D; now apply in_range_snoc). unfold get_at. rewrite vaddr_cell by (try assumption; apply W). cbn [bind]. apply loadA_some.
    rewrite <- elem_cell by (try assumption; apply W). rewrite K by assumption. now apply readable_elem. }
  unfold cget. rewrite !G by lia. reflexivity.
Qed.
Lemma cdot_ok n (f g : Z -> res C) (a b : Z -> C) : (forall i, 0 <= i < n -> f i = Ok (a i) /\ g i = Ok (b i)) ->
  cdot n f g = Ok (rsum (map (fun i => cmul (a i) (b i)) (zrange n))).
Proof.
  intro H. unfold cdot, forZ. rewrite (sum_loop _ _ (fun i => cmul (a i) (b i))); [f_equal; ring|]. intros i t Hi. apply in_zrange in Hi. destruct (H i Hi) as [-> ->]. reflexivity.
Qed.

Lemma cnd v dims k : cshape v dims -> (k < length dims)%nat -> nd v k = nth k dims 0.
Proof. intros [_ D] H. unfold nd. rewrite D. now apply app_nth1. Qed.
Ltac sides := repeat match goal with H : cshape ?v ?d |- context [nd ?v ?k] => rewrite (cnd v d k H) by (cbn; lia) end; cbn [nth]; rewrite ?Z.eqb_refl; cbn [assrt].

(* ---- addition and assignment ---- *)
Lemma cv1_ok r x m n (c : C) : zipable r x m -> cshape r [n] ->
  (exists m', cv1_add r x m = Ok m' /\ cgains r [n] (celem m x) m m') /\
  (exists m', cv1_addc r x c m = Ok m' /\ cgains r [n] (fun ix => cmul (celem m x ix) c) m m') /\
  (exists m', cv1_assign r x m = Ok m' /\ cbecomes r [n] (celem m x) m m').
Proof.
  intros (Wr & Wx & D & Hd & Rr & Rx & Nc) Sr. assert (Sx : cshape x [n]) by (split; [assumption|rewrite D; apply Sr]). split; [|split].
  - unfold cv1_add. sides. rewrite nest1_fold. apply (cacc r [n] (fun ix m => cget x ix m)); try assumption. intros ix m' Hix Q. now apply (cget_zip r x [n] m m').
  - unfold cv1_addc. sides. rewrite nest1_fold.
    destruct (cacc r [n] (fun ix m => do u <- cget x ix m; Ok (cmul u c)) (fun ix => cmul (celem m x ix) c) m) as (m' & E & G); try assumption.
    { intros ix m' Hix Q. rewrite (cget_zip r x [n] m m') by assumption. reflexivity. }
    exists m'. split; [|exact G]. rewrite <- E. apply foldM_ext. intros ix m1 _. destruct (cget x ix m1); reflexivity.
  - unfold cv1_assign. sides. rewrite nest1_fold. apply (cset r [n] (fun ix m => cget x ix m)); try assumption. intros ix m' Hix Q. now apply (cget_zip r x [n] m m').
Qed.

(* ---- products ---- *)
Ltac ops O := let Wr := fresh "Wr" in let Hd := fresh "Hd" in let Rr := fresh "Rr" in let F := fresh "F" in let F' := fresh "F'" in
  destruct O as (Wr & Hd & Rr & F); inversion F as [|? ? (Wx & Rx & Bx) F']; subst; inversion F' as [|? ? (Wy & Ry & By) _]; subst.
Ltac inr := unfold in_range in *; repeat match goal with H : Forall2 _ _ (_ :: _) |- _ => inversion H; subst; clear H | H : Forall2 _ _ [] |- _ => inversion H; subst; clear H end; cbn [nth]; repeat constructor; lia.
Lemma cprods_ok r x y m a n b : operands r [x; y] m -> cshape r [a; b] ->
  (cshape x [a; n] -> cshape y [n; b] -> exists m', cv2_AA r x y m = Ok m' /\
     cgains r [a; b] (fun ix => rsum (map (fun k => cmul (celem m x [nth 0 ix 0; k]) (celem m y [k; nth 1 ix 0])) (zrange n))) m m') /\
  (cshape x [a; n] -> cshape y [b; n] -> exists m', cv2_AH r x y m = Ok m' /\
     cgains r [a; b] (fun ix => rsum (map (fun k => cmul (celem m x [nth 0 ix 0; k]) (conj (celem m y [nth 1 ix 0; k]))) (zrange n))) m m') /\
  (cshape x [n; a] -> cshape y [n; b] -> exists m', cv2_HA r x y m = Ok m' /\
     cgains r [a; b] (fun ix => rsum (map (fun k => cmul (conj (celem m x [k; nth 0 ix 0])) (celem m y [k; nth 1 ix 0])) (zrange n))) m m') /\
  (vdims x = [a; n] -> cshape y [n; b] -> exists m', cv2_NA r x y m = Ok m' /\
     cgains r [a; b] (fun ix => rsum (map (fun k => cmul (of_real (elem0 m x [nth 0 ix 0; k])) (celem m y [k; nth 1 ix 0])) (zrange n))) m m').
Proof.
  intros O Sr. ops O. split; [|split; [|split]]; intros Sx Sy.
  - unfold cv2_AA. sides. rewrite nest2_fold.
    apply (cacc r [a; b] (fun ix m => cdot n (fun i => cget x [nth 0 ix 0; i] m) (fun i => cget y [i; nth 1 ix 0] m))); try assumption. intros ix m' Hix Q. apply cdot_ok. intros i Hi. split.
    + apply (cget_keep r x [a; n] m m' ix); try assumption. inr. + apply (cget_keep r y [n; b] m m' ix); try assumption. inr.
  - unfold cv2_AH. sides. rewrite nest2_fold.
    apply (cacc r [a; b] (fun ix m => cdot n (fun i => cget x [nth 0 ix 0; i] m) (fun i => cget_conj y [nth 1 ix 0; i] m))); try assumption. intros ix m' Hix Q. apply (cdot_ok _ _ _ (fun k => celem m x [nth 0 ix 0; k]) (fun k => conj (celem m y [nth 1 ix 0; k]))). intros i Hi. split.
    + apply (cget_keep r x [a; n] m m' ix); try assumption. inr. + unfold cget_conj. rewrite (cget_keep r y [b; n] m m' ix); try assumption; [reflexivity|]. inr.
  - unfold cv2_HA. sides. rewrite nest2_fold.
    apply (cacc r [a; b] (fun ix m => cdot n (fun i => cget_conj x [i; nth 0 ix 0] m) (fun i => cget y [i; nth 1 ix 0] m))); try assumption. intros ix m' Hix Q. apply (cdot_ok _ _ _ (fun k => conj (celem m x [k; nth 0 ix 0]))). intros i Hi. split.
    + unfold cget_conj. rewrite (cget_keep r x [n; a] m m' ix); try assumption; [reflexivity|]. inr. + apply (cget_keep r y [n; b] m m' ix); try assumption. inr.
  - unfold cv2_NA. sides. rewrite !(nd_eq x _ _ Sx). cbn [nth]. rewrite !Z.eqb_refl. cbn [assrt]. rewrite nest2_fold.
    apply (cacc r [a; b] (fun ix m => cdot n (fun i => do a <- get_at x [nth 0 ix 0; i] m; Ok (of_real a)) (fun i => cget y [i; nth 1 ix 0] m))); try assumption. intros ix m' Hix Q. apply (cdot_ok _ _ _ (fun k => of_real (elem0 m x [nth 0 ix 0; k]))). intros i Hi. split.
    + rewrite (get_keep r x m m' ix); try assumption; [reflexivity|]. rewrite Sx. inr. + apply (cget_keep r y [n; b] m m' ix); try assumption. inr.
Qed.
Lemma cmix1_ok r x y m a n b c : operands r [x; y] m -> cshape r [a; b; c] -> cshape x [a; n; c] ->
  (cshape y [n; b] -> exists m', cv3_mix_1_0 r x y m = Ok m' /\
     cgains r [a; b; c] (fun ix => rsum (map (fun k => cmul (celem m x [nth 0 ix 0; k; nth 2 ix 0]) (celem m y [k; nth 1 ix 0])) (zrange n))) m m') /\
  (cshape y [b; n] -> exists m', cv3_mix_1_H r x y m = Ok m' /\
     cgains r [a; b; c] (fun ix => rsum (map (fun k => cmul (celem m x [nth 0 ix 0; k; nth 2 ix 0]) (conj (celem m y [nth 1 ix 0; k]))) (zrange n))) m m').
Proof.
  intros O Sr Sx. ops O. split; intro Sy.
  - unfold cv3_mix_1_0. sides. rewrite nest3_fold.
    apply (cacc r [a; b; c] (fun ix m => cdot n (fun i => cget x [nth 0 ix 0; i; nth 2 ix 0] m) (fun i => cget y [i; nth 1 ix 0] m))); try assumption. intros ix m' Hix Q. apply cdot_ok. intros i Hi. split.
    + apply (cget_keep r x [a; n; c] m m' ix); try assumption. inr. + apply (cget_keep r y [n; b] m m' ix); try assumption. inr.
  - unfold cv3_mix_1_H. sides. rewrite nest3_fold.
    apply (cacc r [a; b; c] (fun ix m => cdot n (fun i => cget x [nth 0 ix 0; i; nth 2 ix 0] m) (fun i => cget_conj y [nth 1 ix 0; i] m))); try assumption. intros ix m' Hix Q. apply (cdot_ok _ _ _ (fun k => celem m x [nth 0 ix 0; k; nth 2 ix 0]) (fun k => conj (celem m y [nth 1 ix 0; k]))). intros i Hi. split.
    + apply (cget_keep r x [a; n; c] m m' ix); try assumption. inr. + unfold cget_conj. rewrite (cget_keep r y [b; n] m m' ix); try assumption; [reflexivity|]. inr.
Qed.
End Cx.
