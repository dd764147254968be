(* Proofs_Shape.v -- the loops of Model_Shape in closed form *)
From Verif Require Import Base BaseFacts Model_Index Model_View Model_Tensor Model_Groups Model_Shape Spec_Index Proofs_Axes Proofs_Index Proofs_View Spec_Shape.
Local Open Scope Z_scope.

Lemma zget_app (p : list Z) x t : zget (p ++ x :: t) (zlen p) = Ok x.
Proof.
  unfold zget. ifF. unfold vget. rewrite Nat2Z.id, nth_error_app2 by lia. now rewrite Nat.sub_diag.
Qed.
Lemma vset_app (p : list Z) x y t : vset (zlen p) x (p ++ y :: t) = Ok (p ++ x :: t).
Proof.
  unfold vset. rewrite app_length. cbn [length]. ifF. f_equal. rewrite Nat2Z.id.
  clear. induction p as [|a p IH]; cbn; [reflexivity|]. now rewrite IH.
Qed.
Lemma zget_cons {A} (a : A) l i : 0 <= i -> zget (a :: l) (Z.succ i) = zget l i.
Proof.
  intro H. unfold zget. replace (Z.succ i <? 0) with false by lia. replace (i <? 0) with false by lia.
  replace (Z.to_nat (Z.succ i)) with (S (Z.to_nat i)) by lia. reflexivity.
Qed.
Lemma zget_0 {A} (a : A) l : zget (a :: l) 0 = Ok a.
Proof. reflexivity. Qed.
Lemma raw_ok k : 0 <= k -> raw k = Ok (repeat 0 (Z.to_nat k)).
Proof. intro. unfold raw. now ifF. Qed.

Lemma copy_in_app b : forall a c p q t, length q = length b ->
  copy_in (zlen b) (a ++ b ++ c) (zlen a) (zlen p) (p ++ q ++ t) = Ok (p ++ b ++ t).
Proof.
  induction b as [|x b IH]; intros a c p q t L.
  - destruct q; [|discriminate]. reflexivity.
  - destruct q as [|y q]; [discriminate|]. injection L as L.
    unfold copy_in, forZ. cbn [length]. rewrite zrange_cons by lia.
    cbn [foldM]. rewrite !Z.add_0_r. cbn [app]. rewrite zget_app. cbn [bind]. rewrite vset_app. cbn [bind].
    rewrite foldM_map. specialize (IH (a ++ [x]) c (p ++ [x]) q t L).
    rewrite <- !app_assoc in IH. cbn [app] in IH. rewrite <- IH. unfold copy_in, forZ.
    replace (Z.of_nat (S (length b)) - 1) with (zlen b) by lia.
    apply foldM_ext. intros i s _. rewrite !app_length. cbn [length].
    replace (Z.of_nat (length a + 1) + i) with (zlen a + Z.succ i) by lia.
    replace (Z.of_nat (length p + 1) + i) with (zlen p + Z.succ i) by lia. reflexivity.
Qed.
Lemma copy_in_gen n x x0 r0 R a b c p q t : x = a ++ b ++ c -> R = p ++ q ++ t -> n = zlen b -> x0 = zlen a -> r0 = zlen p -> length q = length b ->
  copy_in n x x0 r0 R = Ok (p ++ b ++ t).
Proof. intros -> -> -> -> -> L. now apply copy_in_app. Qed.
Lemma copy_in_neg n x x0 r0 R : n <= 0 -> copy_in n x x0 r0 R = Ok R.
Proof. intro H. unfold copy_in, forZ. now rewrite zrange_nil. Qed.
Lemma repeat_split {A} (x : A) a b n : (n = a + b)%nat -> repeat x n = repeat x a ++ repeat x b.
Proof. intros ->. apply repeat_app. Qed.

(* loops over two lists at once *)
Lemma zip_loop {T} (g : Z -> Z -> T -> res T) : forall x s st, (length x <= length s)%nat ->
  forZ (zlen x) (fun i t => do a <- zget s i; do b <- zget x i; g a b t) st = foldM (fun p t => g (fst p) (snd p) t) (combine s x) st.
Proof.
  induction x as [|x0 x IH]; intros s st L.
  - destruct s; reflexivity.
  - destruct s as [|s0 s]; [cbn in L; lia|]. cbn [length] in *. unfold forZ.
    rewrite zrange_cons by lia. cbn [foldM combine]. rewrite !zget_0. cbn [bind fst snd].
    destruct (g s0 x0 st) as [st'| |]; cbn [bind]; try reflexivity.
    rewrite foldM_map. replace (Z.of_nat (S (length x)) - 1) with (zlen x) by lia.
    rewrite <- (IH s st') by lia. unfold forZ. apply foldM_ext. intros i t I. apply in_zrange in I.
    now rewrite !zget_cons by lia.
Qed.

Lemma place_cons a s b x : place (a :: s) (b :: x) = a * b + place s x.
Proof. reflexivity. Qed.
Lemma place_nil_l x : place [] x = 0. Proof. reflexivity. Qed.
Lemma place_nil_r s : place s [] = 0. Proof. destruct s; reflexivity. Qed.
Lemma dot_place s ix : dot s ix = place s ix.
Proof. revert ix; induction s as [|a s IH]; intros [|b x]; try reflexivity. cbn [dot]. now rewrite IH, place_cons. Qed.
Lemma place_app s1 s2 x1 x2 : length s1 = length x1 -> place (s1 ++ s2) (x1 ++ x2) = place s1 x1 + place s2 x2.
Proof.
  revert x1; induction s1 as [|a s IH]; intros [|b x] L; try discriminate; [reflexivity|].
  injection L as L. cbn [app]. rewrite !place_cons, IH by assumption. lia.
Qed.
Lemma place_app1 s1 s2 x : length s1 = length x -> place (s1 ++ s2) x = place s1 x.
Proof. intro L. rewrite <- (app_nil_r x), place_app by assumption. rewrite place_nil_r, app_nil_r. lia. Qed.

Lemma sum_loop (l : list (Z * Z)) : forall t, foldM (fun p t => Ok (t + fst p * snd p)) l t = Ok (t + fold_right Z.add 0 (map (fun p => fst p * snd p) l)).
Proof. induction l as [|a l IH]; intro t; cbn [foldM bind map fold_right]; [f_equal; lia|]. rewrite IH. f_equal. lia. Qed.
Lemma gs_call_ok s ix : (length ix <= length s)%nat -> gs_call s ix = Ok (place s ix).
Proof.
  intro L. unfold gs_call. replace (length ix <=? length s)%nat with true by (symmetry; now apply Nat.leb_le). cbn [assrt].
  rewrite (zip_loop (fun a b t => Ok (t + a * b))) by assumption. now rewrite sum_loop.
Qed.
Lemma gs_call_throw s ix : (length s < length ix)%nat -> gs_call s ix = Throw.
Proof. intro L. unfold gs_call. now replace (length ix <=? length s)%nat with false by (symmetry; now apply Nat.leb_gt). Qed.
Lemma gs_offs_ok s ix : (length ix <= length s)%nat -> gs_offs s ix = Ok (place s ix).
Proof.
  intro L. unfold gs_offs. rewrite (zip_loop (fun a b t => Ok (t + b * a))) by assumption.
  rewrite (foldM_ext _ (fun p t => Ok (t + fst p * snd p))); [now rewrite sum_loop|]. intros a t _. f_equal. lia.
Qed.
Lemma gi_dot_ok chk ix s : (length ix <= length s)%nat -> gi_dot chk ix s = Ok (place s ix).
Proof.
  intro L. unfold gi_dot, passert. replace (length ix <=? length s)%nat with true by (symmetry; now apply Nat.leb_le).
  assert (E : forZ (zlen ix) (fun i t => do b <- zget ix i; do a <- zget s i; Ok (t + b * a)) 0 = Ok (place s ix)).
  { rewrite <- (gs_offs_ok s ix L). unfold gs_offs, forZ. apply foldM_ext. intros i t I. apply in_zrange in I.
    destruct (zget_ok s i) as (a & -> & _); [lia|]. destruct (zget_ok ix i) as (b & -> & _); [lia|]. reflexivity. }
  destruct chk; exact E.
Qed.

(* ---- the constructor from a shape *)
Lemma gs_new_step dims s0 : forall n pre suf, length pre = n -> forall x, dims = pre ++ x :: suf -> 
  foldM (fun i R => do s <- zget R (i + 1); do d <- zget dims (i + 1); vset i (s * d) R) (rev (zrange (zlen pre)))
    (repeat 0 (length pre) ++ strides_of s0 (x :: suf)) = Ok (strides_of s0 dims).
Proof.
  induction n as [|n IH]; intros pre suf L x E.
  - destruct pre; [|discriminate]. cbn [length]. subst dims. reflexivity.
  - destruct (exists_last (l := pre)) as (p & y & ->); [now destruct pre|].
    rewrite app_length in *. cbn [length] in *. assert (Lp : length p = n) by lia.
    replace (Z.of_nat (length p + 1)) with (zlen p + 1) by lia. rewrite zrange_succ by lia.
    rewrite rev_app_distr. cbn [rev app foldM].
    rewrite repeat_app. cbn [repeat]. rewrite <- app_assoc. cbn [app].
    assert (Ex : exists s ss, strides_of s0 (x :: suf) = s :: ss) by (rewrite strides_of_cons; eauto).
    destruct Ex as (s & ss & Es). rewrite Es.
    replace (repeat 0 (length p) ++ 0 :: s :: ss) with ((repeat 0 (length p) ++ [0]) ++ s :: ss) by now rewrite <- app_assoc.
    replace (zlen p + 1) with (zlen (repeat 0 (length p) ++ [0])) at 1 by (rewrite app_length, repeat_length; cbn [length]; lia).
    rewrite zget_app. cbn [bind].
    rewrite E. replace ((p ++ [y]) ++ x :: suf) with ((p ++ [y]) ++ x :: suf) by reflexivity.
    replace (zlen p + 1) with (zlen (p ++ [y])) at 1 by (rewrite app_length; cbn [length]; lia).
    rewrite zget_app. cbn [bind]. rewrite <- app_assoc. cbn [app].
    replace (zlen p) with (zlen (repeat 0 (length p))) at 1 by (now rewrite repeat_length).
    rewrite vset_app. cbn [bind].
    rewrite <- E. 
    assert (E2 : s * x :: s :: ss = strides_of s0 (y :: x :: suf)).
    { change (strides_of s0 (y :: x :: suf)) with (match strides_of s0 (x :: suf) with [] => [s0] | s1 :: ss => s1 * hd 0 (x :: suf) :: s1 :: ss end).
      now rewrite Es. }
    rewrite E2. apply (IH p (x :: suf) Lp y). rewrite E, <- app_assoc. reflexivity.
Qed.
Lemma gs_new_ok chk dims s0 : dims <> [] -> gs_new chk dims s0 = Ok (strides_of s0 dims).
Proof.
  intro N. destruct (exists_last N) as (p & x & ->). unfold gs_new, passert.
  rewrite app_length. cbn [length]. replace (0 <? Z.of_nat (length p + 1)) with true by lia.
  assert (E : (do R <- raw (Z.of_nat (length p + 1)); do R <- vset (Z.of_nat (length p + 1) - 1) s0 R;
     foldM (fun i R => do s <- zget R (i + 1); do d <- zget (p ++ [x]) (i + 1); vset i (s * d) R) (rev (zrange (Z.of_nat (length p + 1) - 1))) R) = Ok (strides_of s0 (p ++ [x]))).
  { rewrite raw_ok by lia. cbn [bind]. rewrite Nat2Z.id.
    replace (Z.of_nat (length p + 1) - 1) with (zlen p) by lia.
    rewrite (repeat_split 0 (length p) 1) by lia. cbn [repeat].
    replace (zlen p) with (zlen (repeat 0 (length p))) at 1 by (now rewrite repeat_length).
    rewrite vset_app. cbn [bind]. now apply (gs_new_step (p ++ [x]) s0 (length p) p [] eq_refl x). }
  destruct chk; exact E.
Qed.

(* ---- is_regular, is_contiguous, memsize *)
Definition reg_step (s dims : list Z) (i : Z) (st : Z * bool) : res (Z * bool) :=
  let '(t, ok) := st in
  if ok then do a <- zget s i; if a =? t then do d <- zget dims i; Ok (t * d, true) else Ok (t, false) else Ok (t, false).
Lemma reg_loop s dims : forall n ps ss pd ds, length ps = n -> length pd = n -> s = ps ++ ss -> dims = pd ++ ds -> length ss = length ds ->
  forall t (ok : bool), (if ok then regular_aux ss ds = Some t else regular_aux ss ds = None) ->
  exists t', foldM (reg_step s dims) (rev (zrange (Z.of_nat n))) (t, ok) = Ok (t', match regular_aux s dims with Some _ => true | None => false end).
Proof.
  induction n as [|n IH]; intros ps ss pd ds L1 L2 E1 E2 L t ok H.
  - destruct ps; [|discriminate]. destruct pd; [|discriminate]. cbn in E1, E2. subst. exists t. cbn. destruct ok; now rewrite H.
  - destruct (exists_last (l := ps)) as (p & x & ->); [now destruct ps|]. destruct (exists_last (l := pd)) as (q & d & ->); [now destruct pd|].
    rewrite app_length in L1, L2. cbn [length] in L1, L2.
    replace (Z.of_nat (S n)) with (Z.of_nat n + 1) by lia. rewrite zrange_succ by lia. rewrite rev_app_distr. cbn [rev app foldM].
    rewrite <- app_assoc in E1, E2. cbn [app] in E1, E2.
    assert (G1 : zget s (Z.of_nat n) = Ok x) by (rewrite E1; replace (Z.of_nat n) with (zlen p) by lia; apply zget_app).
    assert (G2 : zget dims (Z.of_nat n) = Ok d) by (rewrite E2; replace (Z.of_nat n) with (zlen q) by lia; apply zget_app).
    assert (G : exists t' (ok' : bool), reg_step s dims (Z.of_nat n) (t, ok) = Ok (t', ok') /\
                 (if ok' then regular_aux (x :: ss) (d :: ds) = Some t' else regular_aux (x :: ss) (d :: ds) = None)).
    { unfold reg_step. destruct ok; cbn [regular_aux]; rewrite H.
      - rewrite G1. cbn [bind]. destruct (x =? t) eqn:Ex; [rewrite G2; cbn [bind]; exists (t * d), true; auto|exists t, false; auto].
      - exists t, false. auto. }
    destruct G as (t' & ok' & -> & H'). cbn [bind].
    apply (IH p (x :: ss) q (d :: ds)); auto; try lia. cbn [length]. lia.
Qed.
Lemma gs_regular_ok s dims : gs_regular s dims = is_regular s dims.
Proof.
  unfold gs_regular, is_regular. destruct (length s =? length dims)%nat eqn:E; [|reflexivity]. apply Nat.eqb_eq in E. cbn [assrt].
  destruct (reg_loop s dims (length s) s [] dims [] eq_refl (eq_sym E) (eq_sym (app_nil_r _)) (eq_sym (app_nil_r _)) eq_refl 1 true eq_refl) as (t' & H).
  fold (reg_step s dims). rewrite H. reflexivity.
Qed.
Lemma find_take_first t : forall v dims, length v = length dims ->
  find_take t v dims = match first_eq t v with None => None | Some a => match nth_error dims a with Some d => Some (set_nth a 0 v, d) | None => None end end.
Proof.
  induction v as [|x v IH]; intros [|d ds] L; try discriminate; [reflexivity|]. injection L as L. cbn [find_take first_eq].
  destruct (x =? t); [reflexivity|]. rewrite IH by assumption. destruct (first_eq t v) as [a|]; [|reflexivity]. cbn [option_map nth_error].
  destruct (nth_error ds a); reflexivity.
Qed.
Lemma first_eq_lt t v a : first_eq t v = Some a -> (a < length v)%nat.
Proof.
  revert a; induction v as [|x v IH]; intros a H; [discriminate|]. cbn in *. destruct (x =? t); [injection H as <-; lia|].
  destruct (first_eq t v) as [b|]; [|discriminate]. injection H as <-. specialize (IH b eq_refl). lia.
Qed.
Lemma gs_eat_ok n : forall t v dims, length v = length dims -> gs_eat n t v dims = Ok (contig_loop n t v dims).
Proof.
  induction n as [|n IH]; intros t v dims L; [reflexivity|]. cbn [gs_eat contig_loop]. rewrite find_take_first by assumption.
  destruct (first_eq t v) as [a|] eqn:E; [|reflexivity]. apply first_eq_lt in E.
  destruct (nth_error dims a) as [d|] eqn:Ed; [|apply nth_error_None in Ed; lia].
  unfold vget. rewrite Ed. cbn [bind]. apply IH. now rewrite set_nth_length.
Qed.
Lemma gs_contig_ok s dims : gs_contig s dims = is_contiguous s dims.
Proof.
  unfold gs_contig, is_contiguous. rewrite gs_regular_ok. unfold is_regular. destruct (length s =? length dims)%nat eqn:E; [|reflexivity].
  apply Nat.eqb_eq in E. cbn [assrt bind]. destruct (match regular_aux s dims with Some _ => true | None => false end); [reflexivity|]. now apply gs_eat_ok.
Qed.
Lemma max_loop : forall s dims t, length s = length dims ->
  foldM (fun p t => Ok (Z.max t (fst p * snd p))) (combine s dims) t = Ok (max_extent s dims t).
Proof.
  induction s as [|a s IH]; intros [|d ds] t L; try discriminate; [reflexivity|]. injection L as L. cbn [combine foldM bind max_extent fst snd]. now apply IH.
Qed.
Lemma gs_memsize_ok s dims : length s = length dims -> gs_memsize s dims = Ok (max_extent s dims 0).
Proof.
  intro L. unfold gs_memsize. rewrite L, Nat.eqb_refl. cbn [assrt].
  rewrite (zip_loop (fun a d t => Ok (Z.max t (a * d)))) by lia. now apply max_loop.
Qed.
