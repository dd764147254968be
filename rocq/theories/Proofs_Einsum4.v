(* Proofs_Einsum4.v -- loop nests over padded parameter arrays, and the parameters of lettered axes. *)
From Verif Require Import Base BaseFacts Model_Index Model_View Model_Tensor Model_Einsum Spec_Index Spec_View Spec_Tensor Spec_Einsum
  Proofs_Index Proofs_View Proofs_Tensor Accum Proofs_Einsum Proofs_Einsum2 Proofs_Einsum3.
Local Open Scope Z_scope.

Definition pad (z : Z) (l : list Z) : list Z := l ++ repeat z (4 - length l).
Lemma arr4_ok z l : (length l <= 4)%nat -> arr4 z l = Ok (pad z l).
Proof. intro H. unfold arr4. now rewrite (proj2 (Nat.leb_le _ _) H). Qed.
Lemma nth_pad (z : Z) l n k : nth k (l ++ repeat z n) z = nth k l z.
Proof.
  destruct (Nat.lt_ge_cases k (length l)) as [H|H]; [now rewrite app_nth1|]. rewrite app_nth2 by exact H. rewrite (nth_overflow l) by exact H.
  generalize (k - length l)%nat. induction n as [|n IH]; intros [|j]; cbn; auto.
Qed.
Lemma nth_pad_dim (l : list Z) k : (k < 4)%nat -> (length l <= 4)%nat -> nth k (pad 1 l) 0 = nth k l 1.
Proof.
  intros H L. unfold pad. rewrite <- (nth_pad 1 l (4 - length l) k). apply nth_indep. rewrite app_length, repeat_length. lia.
Qed.
Lemma all_pad d k : all_indices (d ++ repeat 1 k) = map (fun ix => ix ++ repeat 0 k) (all_indices d).
Proof.
  induction d as [|a d IH]; cbn [app all_indices].
  - induction k as [|k IH]; [reflexivity|]. cbn [repeat all_indices]. change (zrange 1) with [0]. cbn [flat_map]. rewrite IH. reflexivity.
  - rewrite IH. induction (zrange a) as [|i l I]; [reflexivity|]. cbn [flat_map]. rewrite map_app, I. f_equal. rewrite !map_map. reflexivity.
Qed.
Lemma foldM_all_cons {S} (f : list Z -> S -> res S) d ds s :
  foldM f (all_indices (d :: ds)) s = forZ d (fun i s => foldM (fun ix => f (i :: ix)) (all_indices ds) s) s.
Proof. cbn [all_indices]. rewrite foldM_flat_map. unfold forZ. apply foldM_ext. intros i s' _. now rewrite foldM_map. Qed.
Lemma foldM_one {S A} (f : A -> S -> res S) a s : foldM f [a] s = f a s.
Proof. cbn. destruct (f a s); reflexivity. Qed.
Lemma nest3 {S} (g : Z -> Z -> Z -> S -> res S) d s : (length d <= 3)%nat ->
  forZ (at0 (pad 1 d)) (fun i0 s => forZ (at1 (pad 1 d)) (fun i1 s => forZ (at2 (pad 1 d)) (fun i2 s => g i0 i1 i2 s) s) s) s =
  foldM (fun ix => g (nth 0 ix 0) (nth 1 ix 0) (nth 2 ix 0)) (all_indices d) s.
Proof.
  intro H. unfold at0, at1, at2. rewrite !nth_pad_dim by lia.
  transitivity (foldM (fun ix => g (nth 0 ix 0) (nth 1 ix 0) (nth 2 ix 0)) (all_indices [nth 0 d 1; nth 1 d 1; nth 2 d 1]) s).
  - rewrite foldM_all_cons. apply foldM_ext. intros i0 s0 _. rewrite foldM_all_cons. apply foldM_ext. intros i1 s1 _. rewrite foldM_all_cons.
    apply foldM_ext. intros i2 s2 _. cbn [all_indices]. rewrite foldM_one. reflexivity.
  - replace [nth 0 d 1; nth 1 d 1; nth 2 d 1] with (d ++ repeat 1 (3 - length d)) by (destruct d as [|a [|b [|c [|? ?]]]]; cbn in H; try lia; reflexivity).
    rewrite all_pad, foldM_map. apply foldM_ext. intros ix s' _. now rewrite !nth_pad.
Qed.
Lemma nest4 {S} (g : Z -> Z -> Z -> Z -> S -> res S) d s : (length d <= 4)%nat ->
  loop4 (pad 1 d) g s = foldM (fun ix => g (nth 0 ix 0) (nth 1 ix 0) (nth 2 ix 0) (nth 3 ix 0)) (all_indices d) s.
Proof.
  intro H. unfold loop4, at0, at1, at2, at3. rewrite !nth_pad_dim by lia.
  transitivity (foldM (fun ix => g (nth 0 ix 0) (nth 1 ix 0) (nth 2 ix 0) (nth 3 ix 0)) (all_indices [nth 0 d 1; nth 1 d 1; nth 2 d 1; nth 3 d 1]) s).
  - rewrite foldM_all_cons. apply foldM_ext. intros i0 s0 _. rewrite foldM_all_cons. apply foldM_ext. intros i1 s1 _. rewrite foldM_all_cons.
    apply foldM_ext. intros i2 s2 _. rewrite foldM_all_cons. apply foldM_ext. intros i3 s3 _. cbn [all_indices]. rewrite foldM_one. reflexivity.
  - replace [nth 0 d 1; nth 1 d 1; nth 2 d 1; nth 3 d 1] with (d ++ repeat 1 (4 - length d)) by (destruct d as [|a [|b [|c [|? [|? ?]]]]]; cbn in H; try lia; reflexivity).
    rewrite all_pad, foldM_map. apply foldM_ext. intros ix s' _. now rewrite !nth_pad.
Qed.
Lemma dot3_pad s ix : length s = length ix -> (length s <= 3)%nat ->
  nth 0 ix 0 * at0 (pad 0 s) + nth 1 ix 0 * at1 (pad 0 s) + nth 2 ix 0 * at2 (pad 0 s) = dot s ix.
Proof.
  intros L H. unfold at0, at1, at2, pad. rewrite !nth_pad. destruct s as [|a [|b [|c [|? ?]]]], ix as [|i [|j [|k [|? ?]]]]; cbn in L, H; try lia; cbn [nth dot]; lia.
Qed.
Lemma dot4_pad s ix : length s = length ix -> (length s <= 4)%nat ->
  nth 0 ix 0 * at0 (pad 0 s) + nth 1 ix 0 * at1 (pad 0 s) + nth 2 ix 0 * at2 (pad 0 s) + nth 3 ix 0 * at3 (pad 0 s) = dot s ix.
Proof.
  intros L H. unfold at0, at1, at2, at3, pad. rewrite !nth_pad. destruct s as [|a [|b [|c [|? [|? ?]]]]], ix as [|i [|j [|k [|? [|? ?]]]]]; cbn in L, H; try lia; cbn [nth dot]; lia.
Qed.

(* ---- parameters *)
Lemma mapM_all {A B} (f : A -> res B) (g : A -> B) l : (forall a, In a l -> f a = Ok (g a)) -> mapM f l = Ok (map g l).
Proof.
  induction l as [|a l IH]; intro H; [reflexivity|]. cbn [mapM map]. rewrite H by now left. cbn [bind]. rewrite IH by (intros; apply H; now right). reflexivity.
Qed.
Lemma mapM_map {A B C} (h : A -> B) (f : B -> res C) l : mapM f (map h l) = mapM (fun a => f (h a)) l.
Proof. induction l as [|a l IH]; [reflexivity|]. cbn. now rewrite IH. Qed.
Lemma occ_head s c : In c s -> exists p l, occ s c = p :: l /\ 0 <= p /\ nth_error s (Z.to_nat p) = Some c.
Proof.
  intro H. apply In_nth_error in H as (n & Hn). assert (I : In (Z.of_nat n) (occ s c)) by (apply occ_in; split; [lia|now rewrite Nat2Z.id]).
  destruct (occ s c) as [|p l] eqn:E; [destruct I|]. exists p, l. split; [reflexivity|]. apply occ_in. rewrite E. now left.
Qed.
Lemma dim_of_ok v s D c : vdims v = map D s -> In c s -> dim_of v (occ s c) = Ok (D c).
Proof.
  intros H I. destruct (occ_head s c I) as (p & l & E & P & N). unfold dim_of. rewrite E. unfold zget at 1, vget. cbn. unfold zget, vget.
  destruct (p <? 0) eqn:Ep; [lia|]. rewrite H. now rewrite (map_nth_error _ _ _ N).
Qed.
Lemma cmb_ok v s c : length (vstr v) = length s -> cmb (vstr v) (occ s c) = Ok (lstride v s c).
Proof.
  intro L. unfold cmb, lstride. assert (H : forall p, In p (occ s c) -> 0 <= p < Z.of_nat (length (vstr v))).
  { intros p Hp. apply occ_in in Hp as [P N]. assert (Z.to_nat p < length s)%nat by (apply nth_error_Some; congruence). lia. }
  assert (G : forall l t, (forall p, In p l -> 0 <= p < Z.of_nat (length (vstr v))) ->
     foldM (fun p t => do a <- zget (vstr v) p; Ok (t + a)) l t = Ok (t + fold_right Z.add 0 (map (fun i => nth (Z.to_nat i) (vstr v) 0) l))).
  { induction l as [|p l IH]; intros t Hp; [cbn; f_equal; lia|]. cbn [foldM]. specialize (Hp p (or_introl eq_refl)) as Hp0. unfold zget at 1, vget.
    destruct (p <? 0) eqn:Ep; [lia|]. rewrite (nth_error_nth' (vstr v) 0) by lia. cbn [bind]. rewrite IH by (intros; apply Hp; now right). cbn [map fold_right]. f_equal. lia. }
  rewrite G by exact H. f_equal.
Qed.
Lemma p_sum_ok v s D L : vdims v = map D s -> length (vstr v) = length s -> (forall c, In c L -> In c s) ->
  p_sum (map (occ s) L) v = Ok (map (fun c => (D c, lstride v s c)) L).
Proof.
  intros Hd Hs HL. unfold p_sum. rewrite mapM_map. apply mapM_all. intros c Hc. rewrite (dim_of_ok v s D) by auto. cbn [bind]. rewrite cmb_ok by assumption. reflexivity.
Qed.
Lemma p_tr_ok x xs r rs D L (f : ascii -> list Z * list Z) : vdims r = map D rs -> length (vstr r) = length rs -> length (vstr x) = length xs -> (forall c, In c L -> In c rs) ->
  (forall c, f c = (occ xs c, occ rs c)) ->
  p_tr (map f L) x r = Ok (map (fun c => (D c, lstride x xs c, lstride r rs c)) L).
Proof.
  intros Hd Hs Hx HL Hf. unfold p_tr. rewrite mapM_map. apply mapM_all. intros c Hc. rewrite Hf. cbn [fst snd]. rewrite (dim_of_ok r rs D) by auto. cbn [bind]. rewrite !cmb_ok by assumption. reflexivity.
Qed.
Lemma p_tr12_ok x xs y ys r rs D L (f : ascii -> tri) : vdims x = map D xs -> length (vstr r) = length rs -> length (vstr x) = length xs -> length (vstr y) = length ys ->
  (forall c, In c L -> In c xs) -> (forall c, f c = (occ xs c, occ ys c, occ rs c)) ->
  p_tr12 (map f L) x y r = Ok (map (fun c => (D c, lstride x xs c, lstride y ys c, lstride r rs c)) L).
Proof.
  intros Hd Hs Hx Hy HL Hf. unfold p_tr12. rewrite mapM_map. apply mapM_all. intros c Hc. rewrite Hf. cbn [fst snd]. rewrite (dim_of_ok x xs D) by auto. cbn [bind]. rewrite !cmb_ok by assumption. reflexivity.
Qed.
Lemma p_con_ok sg x xs Dx y ys Dy L (f : ascii -> list Z * list Z) : vdims x = map Dx xs -> vdims y = map Dy ys -> length (vstr x) = length xs -> length (vstr y) = length ys ->
  (forall c, In c L -> In c xs /\ In c ys) -> (forall c, f c = (occ xs c, occ ys c)) ->
  p_con sg (map f L) x y = Ok (map (fun c => (Z.min (Dx c) (Dy c), sg * lstride x xs c, lstride y ys c)) L).
Proof.
  intros Hdx Hdy Hx Hy HL Hf. unfold p_con. rewrite mapM_map. apply mapM_all. intros c Hc. destruct (HL c Hc). rewrite Hf. cbn [fst snd].
  rewrite (dim_of_ok x xs Dx), (dim_of_ok y ys Dy) by auto. cbn [bind]. rewrite !cmb_ok by assumption. reflexivity.
Qed.

Section Loops.
Context {R : cring}.
Add Ring RrEin4 : (cth R).
Notation memR := (mem (car R)).
Lemma sum_loop {A} (g : A -> res R) (val : A -> R) l : (forall a, In a l -> g a = Ok (val a)) -> forall t,
  foldM (fun a t => do v <- g a; Ok (cadd t v)) l t = Ok (cadd t (rsum (map val l))).
Proof.
  induction l as [|a l IH]; intros H t; [cbn; rewrite rsum_nil; f_equal; ring|]. cbn [foldM]. rewrite H by now left. cbn [bind].
  rewrite IH by (intros; apply H; now right). cbn [map]. rewrite rsum_cons. f_equal. ring.
Qed.
Lemma sum3_ok (x : view) o d s (m : memR) (val : list Z -> R) : (length d <= 3)%nat -> length s = length d ->
  (forall ix, In ix (all_indices d) -> at_ m (vblk x, voff x + (o + dot s ix)) = Some (val ix)) ->
  sum3 x o (pad 1 d) (pad 0 s) m = Ok (rsum (map val (all_indices d))).
Proof.
  intros H L Hv. unfold sum3. rewrite nest3 by assumption.
  rewrite (foldM_ext _ (fun ix t => do v <- loadA m (vblk x, voff x + (o + dot s ix)); Ok (cadd t v))).
  - rewrite (sum_loop (fun ix => loadA m (vblk x, voff x + (o + dot s ix))) val); [f_equal; ring|]. intros ix Hix. apply loadA_some. now apply Hv.
  - intros ix t Hix. apply in_all_indices, in_range_length in Hix. rewrite <- (dot3_pad s ix) by (rewrite ?L; auto). rewrite !Z.add_assoc. reflexivity.
Qed.
Lemma bcast3_ok (r : view) o d s v (m : memR) : (length d <= 3)%nat -> length s = length d ->
  bcast3 r o (pad 1 d) (pad 0 s) v m = foldM (fun b m => incA (vblk r, voff r + (o + dot s b)) v m) (all_indices d) m.
Proof.
  intros H L. unfold bcast3. rewrite nest3 by assumption. apply foldM_ext. intros ix t Hix. apply in_all_indices, in_range_length in Hix.
  rewrite <- (dot3_pad s ix) by (rewrite ?L; auto). unfold incA. rewrite !Z.add_assoc. reflexivity.
Qed.
(* transfers: four letters are handled correctly only if the fourth has the same stride in all operands *)
Definition fourth (T : list ascii) (f g : ascii -> Z) : Prop := forall c, nth_error T 3 = Some c -> f c = g c.
Lemma at3_eq T f g : fourth T f g -> at3 (pad 0 (map f T)) = at3 (pad 0 (map g T)).
Proof.
  intro H. unfold at3, pad. rewrite !nth_pad. destruct (nth_error T 3) as [c|] eqn:E.
  - rewrite (nth_error_nth (map f T) 3 0 (map_nth_error f _ _ E)), (nth_error_nth (map g T) 3 0 (map_nth_error g _ _ E)). now apply H.
  - apply nth_error_None in E. rewrite !nth_overflow; [reflexivity|rewrite map_length; exact E..].
Qed.
Lemma ein1_loops_ok (r x : view) rs T B (D : ascii -> Z) (fx : ascii -> Z) sd ss (m : memR) : (length T <= 4)%nat -> (length B <= 3)%nat ->
  fourth T fx (lstride r rs) ->
  ein1_loops (Par1 (pad 1 (map D T)) (pad 0 (map fx T)) (pad 0 (map (lstride r rs) T)) (pad 1 sd) (pad 0 ss) (pad 1 (map D B)) (pad 0 (map (lstride r rs) B))) r x 0 0 m =
  einloop r rs T B D (fun t m => sum3 x (dot (map fx T) t) (pad 1 sd) (pad 0 ss) m) m.
Proof.
  intros HT HB H4. unfold ein1_loops, einloop. cbn [p1_td p1_tx p1_tr p1_sd p1_ss p1_bd p1_bs]. rewrite nest4 by now rewrite map_length. apply foldM_ext.
  intros t m' Ht. apply in_all_indices, in_range_length in Ht. rewrite map_length in Ht. rewrite !Z.add_0_l.
  rewrite (dot4_pad (map fx T) t) by (rewrite map_length; auto).
  destruct (sum3 _ _ _ _ _); cbn [bind]; [|reflexivity..]. rewrite (at3_eq T fx (lstride r rs) H4).
  rewrite !dot4_pad by (rewrite map_length; auto). apply bcast3_ok; unfold cs; rewrite ?map_length; auto.
Qed.
End Loops.
