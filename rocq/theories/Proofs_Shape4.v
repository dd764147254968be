(* Proofs_Shape4.v -- shapes of products, joined lists, entries of lists, multi-indices *)
From Verif Require Import Base BaseFacts Model_Index Model_View Model_Tensor Model_Groups Model_Shape Spec_Index Proofs_Axes Proofs_Index Proofs_View Spec_Shape Proofs_Shape.
Local Open Scope Z_scope.

(* ---- products *)
Lemma mprod_loops_ok x0 y0 x y a xs c d ys e : x = a ++ xs ++ c -> y = d ++ ys ++ e -> x0 = zlen a -> y0 = zlen d -> length x = S (length xs) -> length y = S (length ys) ->
  mprod_loops x0 y0 x y = Ok (xs ++ ys).
Proof.
  intros Ex Ey -> -> Lx Ly. unfold mprod_loops. rewrite Lx, Ly. rewrite raw_ok by lia. cbn [bind].
  rewrite (repeat_split 0 (length xs) (length ys)) by lia.
  unfold copy_to. ifF. rewrite (copy_in_gen _ x _ 0 _ a xs c [] (repeat 0 (length xs)) (repeat 0 (length ys))); auto; [|lia|now rewrite repeat_length].
  cbn [bind app]. ifF. rewrite (copy_in_gen _ y _ _ _ d ys e xs (repeat 0 (length ys)) []); auto; rewrite ?app_nil_r, ?repeat_length; auto; lia.
Qed.
Lemma mprod_ok xs k l ys : gd_mprod (xs ++ [k]) (l :: ys) = Ok (xs ++ ys).
Proof. apply (mprod_loops_ok 0 1 _ _ [] xs [k] [l] ys []); auto; try (now rewrite app_nil_r). rewrite app_length. cbn. lia. Qed.
Lemma mprod_AT_ok xs k ys l : gd_mprod_AT (xs ++ [k]) (ys ++ [l]) = Ok (xs ++ ys).
Proof. apply (mprod_loops_ok 0 0 _ _ [] xs [k] [] ys [l]); auto; rewrite app_length; cbn; lia. Qed.
Lemma mprod_TA_ok k xs l ys : gd_mprod_TA (k :: xs) (l :: ys) = Ok (xs ++ ys).
Proof. apply (mprod_loops_ok 1 1 _ _ [k] xs [] [l] ys []); auto; now rewrite app_nil_r. Qed.
Lemma mprod_TT_ok k xs ys l : gd_mprod_TT (k :: xs) (ys ++ [l]) = Ok (xs ++ ys).
Proof. apply (mprod_loops_ok 1 0 _ _ [k] xs [] [] ys [l]); auto; try (now rewrite app_nil_r). rewrite app_length. cbn. lia. Qed.

Lemma eqlb_eq a b : eqlb a b = true <-> a = b.
Proof.
  revert b; induction a as [|x a IH]; intros [|y b]; cbn; split; intro H; try discriminate; auto.
  - apply andb_true_iff in H. destruct H as (H1 & H2). apply IH in H2. f_equal; [lia|assumption].
  - injection H as -> ->. rewrite Z.eqb_refl. cbn. now apply IH.
Qed.
Lemma chunk_front (b c : list Z) : vchunk 0 (zlen b) (b ++ c) = Ok b.
Proof.
  unfold vchunk. rewrite app_length. ifF. ifF. ifF. f_equal. cbn [Z.to_nat skipn]. rewrite Nat2Z.id, firstn_app, Nat.sub_diag, firstn_all. apply app_nil_r.
Qed.
Lemma zget_snoc (b : list Z) x : zget (b ++ [x]) (zlen b) = Ok x.
Proof. apply zget_app. Qed.
(* the case distinction of mvprod: x has at least two sides and y one less, or the shapes are refused *)
Lemma mvprod_cases b n m c q : length c = length b ->
  gd_mvprod (b ++ [n; m]) (c ++ [q]) = if eqlb b c && (m =? q) then Ok (b ++ [n]) else Throw.
Proof.
  intro L. unfold gd_mvprod. rewrite !app_length. cbn [length].
  replace (Z.of_nat (length c + 1) =? Z.of_nat (length b + 2) - 1) with true by lia. cbn [assrt].
  replace (Z.of_nat (length b + 2) - 1 - 1) with (zlen b) by lia.
  rewrite chunk_front. rewrite <- L, chunk_front. cbn [bind].
  destruct (eqlb b c) eqn:E; cbn [assrt andb]; [|reflexivity]. apply eqlb_eq in E. subst c.
  replace (b ++ [n; m]) with ((b ++ [n]) ++ [m]) by now rewrite <- app_assoc.
  replace (Z.of_nat (length b + 2) - 1) with (zlen (b ++ [n])) by (rewrite app_length; cbn [length]; lia).
  rewrite zget_snoc. cbn [bind]. rewrite zget_snoc. cbn [bind]. destruct (m =? q); cbn [assrt]; [|reflexivity].
  rewrite raw_ok by lia. cbn [bind]. rewrite app_length, Nat2Z.id. rewrite repeat_app. cbn [length].
  rewrite (copy_in_gen _ _ _ _ _ [] b ([n] ++ [m]) [] (repeat 0 (length b)) (repeat 0 1)); auto; [|now rewrite <- app_assoc|now rewrite repeat_length].
  cbn [bind app]. rewrite <- app_assoc. cbn [app]. rewrite (zget_app b n [m]). cbn [bind repeat]. apply vset_app.
Qed.
Lemma mvprod_rank x y : length x <> S (length y) -> gd_mvprod x y = Throw.
Proof. intro H. unfold gd_mvprod. now replace (zlen y =? zlen x - 1) with false by lia. Qed.
Lemma mvprod_one x : gd_mvprod [x] [] = Throw.
Proof. reflexivity. Qed.
Lemma mvprod_iff x y r : gd_mvprod x y = Ok r <-> exists b n m, x = b ++ [n; m] /\ y = b ++ [m] /\ r = b ++ [n].
Proof.
  split.
  - intro H. destruct (Nat.eq_dec (length x) (S (length y))) as [L|L]; [|now rewrite mvprod_rank in H].
    destruct y as [|y0 y]; [destruct x as [|x0 [|? ?]]; cbn in L; try lia; discriminate|].
    destruct (exists_last (l := y0 :: y)) as (c & q & Ey); [discriminate|]. rewrite Ey in *.
    destruct (exists_last (l := x)) as (x1 & m & ->); [now destruct x|]. rewrite !app_length in L. cbn [length] in L.
    destruct (exists_last (l := x1)) as (b & n & ->); [destruct x1; [cbn in L; lia|discriminate]|]. rewrite app_length in L. cbn [length] in L.
    rewrite <- app_assoc in H. cbn [app] in H. rewrite mvprod_cases in H by lia.
    destruct (eqlb b c) eqn:E; [|discriminate]. apply eqlb_eq in E. subst c. destruct (m =? q) eqn:Q; [|discriminate].
    injection H as <-. assert (m = q) by lia. subst q. exists b, n, m. rewrite <- app_assoc. auto.
  - intros (b & n & m & -> & -> & ->). rewrite mvprod_cases by reflexivity. replace (eqlb b b) with true by (symmetry; now apply eqlb_eq). now rewrite Z.eqb_refl.
Qed.
Lemma mvprod_safe x y : gd_mvprod x y <> UB.
Proof.
  destruct (Nat.eq_dec (length x) (S (length y))) as [L|L]; [|now rewrite mvprod_rank].
  destruct y as [|y0 y]; [destruct x as [|x0 [|? ?]]; cbn in L; try lia; discriminate|].
  destruct (exists_last (l := y0 :: y)) as (c & q & Ey); [discriminate|]. rewrite Ey in *.
  destruct (exists_last (l := x)) as (x1 & m & ->); [now destruct x|]. rewrite !app_length in L. cbn [length] in L.
  destruct (exists_last (l := x1)) as (b & n & ->); [destruct x1; [cbn in L; lia|discriminate]|]. rewrite app_length in L. cbn [length] in L.
  rewrite <- app_assoc. cbn [app]. rewrite mvprod_cases by lia. destruct (_ && _); discriminate.
Qed.

(* ---- convolve *)
Definition conv_sides (x y : list Z) : list Z := map (fun q => fst q - (snd q - 1)) (combine x y).
Lemma conv_sides_loop : forall y x py px, length x = length y -> length px = length py ->
  foldM (fun i R => do a <- zget R i; do b <- zget (py ++ y) i; vset i (a - (b - 1)) R) (map (Z.add (zlen px)) (zrange (zlen y))) (px ++ x)
  = Ok (px ++ conv_sides x y).
Proof.
  induction y as [|b y IH]; intros x py px L P.
  - destruct x; [|discriminate]. reflexivity.
  - destruct x as [|a x]; [discriminate|]. injection L as L. cbn [length]. rewrite zrange_cons by lia. cbn [map foldM].
    rewrite Z.add_0_r, zget_app. cbn [bind]. rewrite P, zget_app. cbn [bind]. rewrite <- P, vset_app. cbn [bind].
    replace (Z.of_nat (S (length y)) - 1) with (zlen y) by lia. rewrite map_map.
    rewrite (map_ext _ (Z.add (zlen (px ++ [a - (b - 1)])))) by (intro; rewrite app_length; cbn [length]; lia).
    specialize (IH x (py ++ [b]) (px ++ [a - (b - 1)]) L). rewrite <- !app_assoc in IH. cbn [app] in IH. rewrite IH by (rewrite !app_length; cbn [length]; lia).
    reflexivity.
Qed.
Lemma convolve_ok chk x y : length x = length y -> gd_convolve chk x y = Ok (conv_sides x y).
Proof.
  intro L. unfold gd_convolve, passert. replace (zlen x =? zlen y) with true by lia.
  pose proof (conv_sides_loop y x [] [] L eq_refl) as H. cbn [app length Z.of_nat] in H.
  rewrite (map_ext (Z.add 0) (fun i => i)), map_id in H by (intro; lia). unfold forZ. rewrite L. destruct chk; exact H.
Qed.
Lemma convolve_throw x y : length x <> length y -> gd_convolve true x y = Throw.
Proof. intro L. unfold gd_convolve, passert. now replace (zlen x =? zlen y) with false by lia. Qed.
Lemma conv_sides_iff : forall x y o, length x = length y -> positive y ->
  (in_range o (conv_sides x y) <-> length o = length x /\ forall w, in_range w y -> in_range (shift o w) x).
Proof.
  assert (Z0 : forall y, positive y -> exists w, in_range w y).
  { intros y P. exists (map (fun _ => 0) y). induction P; constructor; auto; lia. }
  induction x as [|a x IH]; intros [|b y] o L P; try discriminate.
  - split.
    + intro I. inversion I. split; [reflexivity|]. intros w J. inversion J. constructor.
    + intros (Lo & _). destruct o; [constructor|discriminate].
  - injection L as L. inversion P as [|? ? Pb Py]; subst. unfold conv_sides. cbn [combine map fst snd]. fold (conv_sides x y). split.
    + intro I. inversion I as [|i d o' ds Hi I']; subst. apply (IH y o' L Py) in I'. destruct I' as (Lo & K). split; [cbn; lia|].
      intros w J. inversion J as [|j d w' ds' Hj J']; subst. unfold shift. cbn [combine map fst snd]. constructor; [lia|]. now apply K.
    + intros (Lo & K). destruct o as [|i o]; [discriminate|]. injection Lo as Lo. destruct (Z0 y Py) as (w & W).
      assert (A : in_range (shift (i :: o) (0 :: w)) (a :: x)) by (apply K; constructor; [lia|exact W]).
      assert (B : in_range (shift (i :: o) (b - 1 :: w)) (a :: x)) by (apply K; constructor; [lia|exact W]).
      unfold shift in A, B. cbn [combine map fst snd] in A, B. inversion A; inversion B; subst. constructor; [lia|].
      apply (IH y o L Py). split; [exact Lo|]. intros v V.
      assert (C : in_range (shift (i :: o) (0 :: v)) (a :: x)) by (apply K; constructor; [lia|exact V]). unfold shift in C. cbn [combine map] in C. now inversion C.
Qed.

(* ---- joining *)
Lemma join_ok x y : gd_join x y = Ok (x ++ y).
Proof.
  unfold gd_join. rewrite raw_ok by lia. cbn [bind]. rewrite (repeat_split 0 (length x) (length y)) by lia.
  rewrite (copy_in_gen _ x _ _ _ [] x [] [] (repeat 0 (length x)) (repeat 0 (length y))); auto; rewrite ?app_nil_r, ?repeat_length; auto. cbn [bind app].
  rewrite (copy_in_gen _ y _ _ _ [] y [] x (repeat 0 (length y)) []); auto; rewrite ?app_nil_r, ?repeat_length; auto.
Qed.
Lemma mid_ok x v y : gv_mid x v y = Ok (x ++ v :: y).
Proof.
  unfold gv_mid. rewrite raw_ok by lia. cbn [bind]. rewrite (repeat_split 0 (length x) (S (length y))) by lia.
  rewrite (copy_in_gen _ x _ _ _ [] x [] [] (repeat 0 (length x)) (repeat 0 (S (length y)))); auto; rewrite ?app_nil_r, ?repeat_length; auto. cbn [bind app repeat].
  rewrite (copy_in_gen _ y _ _ _ [] y [] (x ++ [0]) (repeat 0 (length y)) []); auto; rewrite ?app_nil_r, ?repeat_length, ?app_length; auto; [|now rewrite <- app_assoc|cbn [length]; lia].
  cbn [bind]. rewrite <- app_assoc. cbn [app]. apply vset_app.
Qed.
Lemma front_ok b x y : gv_front b x y = Ok (b :: x ++ y).
Proof.
  unfold gv_front. rewrite raw_ok by lia. cbn [bind]. replace (Z.to_nat (zlen x + zlen y + 1)) with (S (length x + length y)) by lia. cbn [repeat].
  replace (vset 0 b (0 :: repeat 0 (length x + length y))) with (Ok (b :: repeat 0 (length x + length y))) by (unfold vset; cbn [length]; ifF; reflexivity). cbn [bind].
  rewrite repeat_app.
  rewrite (copy_in_gen _ x _ _ _ [] x [] [b] (repeat 0 (length x)) (repeat 0 (length y))); auto; rewrite ?app_nil_r, ?repeat_length; auto. cbn [bind app].
  rewrite (copy_in_gen _ y _ _ _ [] y [] (b :: x) (repeat 0 (length y)) []); auto; rewrite ?app_nil_r, ?repeat_length; auto. cbn [length]; lia.
Qed.
Lemma extend_ok y : forall x, gd_extend x y = x ++ y.
Proof. unfold gd_extend. induction y as [|a y IH]; intro x; cbn; [now rewrite app_nil_r|]. rewrite IH, <- app_assoc. reflexivity. Qed.
Lemma concat_inner q : forall p y t, length y = length q ->
  foldM (fun q (st : list Z * Z) => let '(R, i) := st in do R <- vset i q R; Ok (R, i + 1)) q (p ++ y ++ t, zlen p) = Ok (p ++ q ++ t, zlen p + zlen q).
Proof.
  induction q as [|a q IH]; intros p y t L.
  - destruct y; [|discriminate]. cbn [foldM length app]. now rewrite Z.add_0_r.
  - destruct y as [|b y]; [discriminate|]. injection L as L. cbn [foldM app]. rewrite vset_app. cbn [bind].
    specialize (IH (p ++ [a]) y t L). rewrite <- !app_assoc in IH. cbn [app] in IH. rewrite app_length in IH. cbn [length] in *.
    replace (Z.of_nat (length p + 1)) with (zlen p + 1) in IH by lia. rewrite IH. f_equal. f_equal. lia.
Qed.
Lemma concat_outer ls : forall p y, length y = length (concat ls) ->
  foldM (fun p (st : list Z * Z) => foldM (fun q (st : list Z * Z) => let '(R, i) := st in do R <- vset i q R; Ok (R, i + 1)) p st) ls (p ++ y, zlen p)
  = Ok (p ++ concat ls, zlen (p ++ concat ls)).
Proof.
  induction ls as [|l ls IH]; intros p y L.
  - destruct y; [|discriminate]. cbn [foldM concat]. now rewrite app_nil_r.
  - cbn [concat] in *. rewrite app_length in L. cbn [foldM].
    rewrite <- (firstn_skipn (length l) y). rewrite concat_inner by (rewrite firstn_length; lia). cbn [bind].
    specialize (IH (p ++ l) (skipn (length l) y)). rewrite app_length, <- !app_assoc in IH. replace (Z.of_nat (length p + length l)) with (zlen p + zlen l) in IH by lia.
    apply IH. rewrite skipn_length. lia.
Qed.
Lemma total_length ls : forall n, fold_left (fun n (p : list Z) => n + zlen p) ls n = n + zlen (concat ls).
Proof. induction ls as [|l ls IH]; intro n; cbn [fold_left concat]; [cbn; lia|]. rewrite IH, app_length. lia. Qed.
Lemma gd_concat_ok ls : gd_concat ls = Ok (concat ls).
Proof.
  unfold gd_concat. rewrite total_length, Z.add_0_l, raw_ok by lia. cbn [bind]. rewrite Nat2Z.id.
  pose proof (concat_outer ls [] (repeat 0 (length (concat ls))) (repeat_length _ _)) as H. cbn [app length Z.of_nat] in H. rewrite H. reflexivity.
Qed.
Lemma cat_args_ok a0 args : gv_cat_args a0 args = concat (map (fun a => match a with inl d => [d] | inr l => l end) (a0 :: args)).
Proof.
  unfold gv_cat_args. cbn [map concat]. generalize (match a0 with inl d => [d] | inr l => l end) as v.
  induction args as [|a args IH]; intro v; cbn [fold_left map concat]; [now rewrite app_nil_r|]. rewrite IH. destruct a as [d|l].
  - rewrite <- app_assoc. reflexivity.
  - change (fold_left (fun (v0 : list Z) (d : Z) => v0 ++ [d]) l v) with (gd_extend v l). rewrite extend_ok, <- app_assoc. reflexivity.
Qed.
Lemma insert_list_ok p q x : gv_insert_list (zlen p) x (p ++ q) = Ok (p ++ x ++ q).
Proof.
  unfold gv_insert_list. rewrite app_length. ifF. rewrite raw_ok by lia. cbn [bind].
  rewrite (repeat_split 0 (length p) (length x + length q)) by lia.
  rewrite (copy_in_gen _ _ _ _ _ [] p q [] (repeat 0 (length p)) (repeat 0 (length x + length q))); auto; rewrite ?repeat_length; auto. cbn [bind app].
  rewrite repeat_app. rewrite (copy_in_gen _ x _ _ _ [] x [] p (repeat 0 (length x)) (repeat 0 (length q))); auto; rewrite ?app_nil_r, ?repeat_length; auto. cbn [bind].
  rewrite (copy_in_gen _ _ _ _ _ p q [] (p ++ x) (repeat 0 (length q)) []); auto; rewrite ?app_nil_r, ?repeat_length, ?app_length; auto; try lia; now rewrite <- app_assoc.
Qed.
Lemma fill_loop x n : forall p y t, length y = n ->
  foldM (fun i R => vset (zlen p + i) x R) (zrange (Z.of_nat n)) (p ++ y ++ t) = Ok (p ++ repeat x n ++ t).
Proof.
  induction n as [|n IH]; intros p y t L.
  - destruct y; [|discriminate]. reflexivity.
  - destruct y as [|b y]; [discriminate|]. injection L as L. rewrite zrange_cons by lia. cbn [foldM]. rewrite Z.add_0_r. cbn [app]. rewrite vset_app. cbn [bind].
    rewrite foldM_map. replace (Z.of_nat (S n) - 1) with (Z.of_nat n) by lia.
    specialize (IH (p ++ [x]) y t L). rewrite <- !app_assoc in IH. cbn [app] in IH. cbn [repeat app]. rewrite <- IH.
    apply foldM_ext. intros i s _. rewrite app_length. cbn [length]. f_equal. lia.
Qed.
Lemma insert_n_ok p q n x : 0 <= n -> gv_insert_n (zlen p) n x (p ++ q) = Ok (p ++ repeat x (Z.to_nat n) ++ q).
Proof.
  intro N. unfold gv_insert_n. rewrite app_length. ifF. rewrite raw_ok by lia. cbn [bind].
  rewrite (repeat_split 0 (length p) (Z.to_nat n + length q)) by lia.
  rewrite (copy_in_gen _ _ _ _ _ [] p q [] (repeat 0 (length p)) (repeat 0 (Z.to_nat n + length q))); auto; rewrite ?repeat_length; auto. cbn [bind app].
  rewrite repeat_app. rewrite (copy_in_gen _ _ _ _ _ p q [] (p ++ repeat 0 (Z.to_nat n)) (repeat 0 (length q)) []); auto; rewrite ?app_nil_r, ?repeat_length, ?app_length, ?repeat_length; auto; try lia; [|now rewrite <- app_assoc].
  cbn [bind]. rewrite <- app_assoc. unfold forZ. rewrite <- (Z2Nat.id n N) at 1. apply fill_loop. now rewrite repeat_length.
Qed.

(* ---- entries *)
Lemma max_ok a r : exists m, gv_max (a :: r) = Ok m /\ In m (a :: r) /\ forall x, In x (a :: r) -> x <= m.
Proof.
  unfold gv_max. eexists. split; [reflexivity|]. revert a. induction r as [|b r IH]; intro a; cbn [fold_left].
  - split; [now left|]. intros x [<-|[]]. lia.
  - destruct (IH (if a <? b then b else a)) as (I & M). set (m := fold_left _ r _) in *. split.
    + destruct I as [E|I]; [|right; now right]. rewrite <- E. destruct (a <? b); [right; left|left]; reflexivity.
    + pose proof (M (if a <? b then b else a) (or_introl eq_refl)) as Q. intros x [<-|[<-|I2]]; [destruct (a <? b) eqn:E; lia|destruct (a <? b) eqn:E; lia|]. apply M. now right.
Qed.
Lemma min_ok a r : exists m, gv_min (a :: r) = Ok m /\ In m (a :: r) /\ forall x, In x (a :: r) -> m <= x.
Proof.
  unfold gv_min. eexists. split; [reflexivity|]. revert a. induction r as [|b r IH]; intro a; cbn [fold_left].
  - split; [now left|]. intros x [<-|[]]. lia.
  - destruct (IH (if b <? a then b else a)) as (I & M). set (m := fold_left _ r _) in *. split.
    + destruct I as [E|I]; [|right; now right]. rewrite <- E. destruct (b <? a); [right; left|left]; reflexivity.
    + pose proof (M (if b <? a then b else a) (or_introl eq_refl)) as Q. intros x [<-|[<-|I2]]; [destruct (b <? a) eqn:E; lia|destruct (b <? a) eqn:E; lia|]. apply M. now right.
Qed.
Lemma times_loop x : forall y p px, length px = length p ->
  foldM (fun i R => do a <- zget (p ++ y) i; vset i (a * x) R) (map (Z.add (zlen p)) (zrange (zlen y))) (px ++ y) = Ok (px ++ map (fun a => a * x) y).
Proof.
  induction y as [|b y IH]; intros p px P; [reflexivity|]. cbn [length]. rewrite zrange_cons by lia. cbn [map foldM].
  rewrite Z.add_0_r, zget_app. cbn [bind]. rewrite <- P, vset_app. cbn [bind].
  replace (Z.of_nat (S (length y)) - 1) with (zlen y) by lia. rewrite map_map.
  rewrite (map_ext _ (Z.add (zlen (p ++ [b])))) by (intro; rewrite app_length; cbn [length]; lia).
  specialize (IH (p ++ [b]) (px ++ [b * x])). rewrite <- !app_assoc in IH. cbn [app] in IH. apply IH. rewrite !app_length; cbn [length]; lia.
Qed.
Lemma times_ok x l : gv_times x l = Ok (map (fun a => a * x) l).
Proof.
  unfold gv_times, forZ. pose proof (times_loop x l [] [] eq_refl) as H. cbn [app length Z.of_nat] in H.
  rewrite (map_ext (Z.add 0) (fun i => i)), map_id in H by (intro; lia). exact H.
Qed.
Lemma to_vector_ok l : gv_to_vector l = Ok l.
Proof.
  unfold gv_to_vector. rewrite raw_ok by lia. cbn [bind]. rewrite Nat2Z.id.
  rewrite (copy_in_gen _ l _ _ _ [] l [] [] (repeat 0 (length l)) []); auto; rewrite ?app_nil_r, ?repeat_length; auto.
Qed.
Lemma set_back_ok p a r x : gv_set_back (zlen r) x (p ++ a :: r) = Ok (p ++ x :: r).
Proof. unfold gv_set_back. rewrite app_length. cbn [length]. replace (Z.of_nat (length p + S (length r)) - 1 - zlen r) with (zlen p) by lia. apply vset_app. Qed.
Lemma at_back_ok p (a : Z) r : at_back (p ++ a :: r) (zlen r) = Ok a.
Proof. unfold at_back. rewrite app_length. cbn [length]. replace (Z.of_nat (length p + S (length r)) - 1 - zlen r) with (zlen p) by lia. apply zget_app. Qed.
Lemma at_end_ok p (a : Z) r : at_end (p ++ a :: r) (zlen p) = Ok a /\ at_end (p ++ a :: r) (- 1 - zlen r) = Ok a.
Proof.
  unfold at_end. split; [ifF; apply zget_app|]. ifT. rewrite app_length. cbn [length].
  replace (Z.of_nat (length p + S (length r)) + (-1 - zlen r)) with (zlen p) by lia. apply zget_app.
Qed.
Lemma at_end_ub l i : ~ (- zlen l <= i < zlen l) -> at_end l i = UB.
Proof.
  intro H. unfold at_end. destruct (i <? 0) eqn:E; unfold zget, vget.
  - ifT. reflexivity.
  - ifF. destruct (nth_error l (Z.to_nat i)) eqn:N; [|reflexivity]. exfalso. assert (nth_error l (Z.to_nat i) <> None) as K by congruence. apply nth_error_Some in K. lia.
Qed.

(* ---- multi-indices *)
Lemma gi_of_ok x : gi_of x = filter (fun p => 0 <=? p) x.
Proof.
  unfold gi_of. assert (G : forall r, fold_left (fun r p => if 0 <=? p then r ++ [p] else r) x r = r ++ filter (fun p => 0 <=? p) x).
  { induction x as [|a x IH]; intro r; cbn [fold_left filter]; [now rewrite app_nil_r|]. rewrite IH. destruct (0 <=? a); [now rewrite <- app_assoc|reflexivity]. }
  apply G.
Qed.
Lemma flat_app x dx y dy : length x = length dx -> flat (x ++ y) (dx ++ dy) = flat x dx * prod dy + flat y dy.
Proof.
  revert dx; induction x as [|i x IH]; intros [|d dx] L; try discriminate; [cbn; lia|]. injection L as L. cbn [app flat]. rewrite IH by assumption. rewrite prod_app. ring.
Qed.
Lemma gi_eq_ok x y : exists b, gi_eq x y = Ok b /\ (b = true <-> x = y).
Proof.
  unfold gi_eq. destruct (length x =? length y)%nat eqn:L; cbn [negb].
  - apply Nat.eqb_eq in L.
    assert (E : forZ (zlen x) (fun i (ok : bool) => if ok then do a <- zget x i; do b <- zget y i; Ok (a =? b) else Ok false) true
               = foldM (fun p (ok : bool) => if ok then Ok (fst p =? snd p) else Ok false) (combine x y) true).
    { rewrite <- (zip_loop (fun a b (ok : bool) => if ok then Ok (a =? b) else Ok false)) by lia. rewrite L. unfold forZ. apply foldM_ext. intros i ok I. apply in_zrange in I.
      destruct ok; [reflexivity|]. destruct (zget_ok x i) as (a & -> & _); [lia|]. destruct (zget_ok y i) as (b & -> & _); [lia|]. reflexivity. }
    rewrite E. clear E.
    assert (F : forall l : list (Z * Z), foldM (fun p (ok : bool) => if ok then Ok (fst p =? snd p) else Ok false) l false = Ok false) by (induction l as [|p l IH]; [reflexivity|exact IH]).
    revert y L. induction x as [|a x IH]; intros [|b y] L; try discriminate.
    + exists true. split; [reflexivity|tauto].
    + injection L as L. cbn [combine foldM fst snd bind]. destruct (a =? b) eqn:E.
      * destruct (IH y L) as (r & -> & R). exists r. split; [reflexivity|]. rewrite R. assert (a = b) by lia. subst b. split; [intros ->; reflexivity|intro H; now injection H].
      * rewrite F. exists false. split; [reflexivity|]. split; [discriminate|]. intro H. injection H as H _. lia.
  - exists false. split; [reflexivity|]. split; [discriminate|]. intros ->. now rewrite Nat.eqb_refl in L.
Qed.
