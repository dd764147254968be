(* Proofs_BG.v -- batch and grid reconciliation; one body of for_each_cell_multi. *)
From Verif Require Import Base BaseFacts Model_Index Model_View Spec_Index Proofs_Index Spec_View Proofs_View Model_Threads Spec_Threads Proofs_Threads Model_BG Spec_BG.
From Coq Require Import Permutation.
Local Open Scope Z_scope.

Lemma shape_eqb_spec a : forall b, reflect (a = b) (shape_eqb a b).
Proof.
  induction a as [|x a IH]; intros [|y b]; cbn; try (constructor; congruence).
  destruct (x =? y) eqn:E; cbn; [|constructor; intro H; injection H; lia]. destruct (IH b) as [->|N]; constructor; [f_equal; lia|congruence].
Qed.
Lemma shape_eqb_refl a : shape_eqb a a = true. Proof. destruct (shape_eqb_spec a a); congruence. Qed.
Lemma shaped_getb x b g c : shaped x b g c -> getb x = Ok b. Proof. intros (E & _). unfold getb. now rewrite E. Qed.
Lemma chunk_mid {A} (b : A) g c : vchunk 1 (Z.of_nat (length g)) (b :: g ++ c) = Ok g.
Proof.
  unfold vchunk. cbn [length]. rewrite app_length. cbn [Z.ltb Z.compare]. replace (Z.of_nat (length g) =? -1) with false by lia. change (1 <? 0) with false. cbv iota zeta.
  replace (_ || _ || _) with false by lia. change (Z.to_nat 1) with 1%nat. cbn [skipn]. rewrite Nat2Z.id, firstn_app, Nat.sub_diag, firstn_all, firstn_O, app_nil_r. reflexivity.
Qed.
Lemma chunk_end {A} (b : A) g c : vchunk (1 + Z.of_nat (length g)) (-1) (b :: g ++ c) = Ok c.
Proof.
  unfold vchunk. cbn [length]. rewrite app_length. replace (1 + Z.of_nat (length g) <? 0) with false by lia. change (-1 =? -1) with true. cbv iota zeta.
  replace (_ || _ || _) with false by lia. replace (Z.to_nat (1 + _)) with (S (length g)) by lia. cbn [skipn]. rewrite skipn_app, skipn_all, Nat.sub_diag. cbn [skipn app]. f_equal. apply firstn_all2. lia.
Qed.
Lemma shaped_gdims x b g c : shaped x b g c -> gdims x = Ok g. Proof. intros (E & N & _). unfold gdims. rewrite E, N. apply chunk_mid. Qed.
Lemma shaped_has_grid x b g c : shaped x b g c -> has_grid x = nonempty g. Proof. intros (_ & N & _). unfold has_grid. rewrite N. destruct g; reflexivity. Qed.
Lemma shaped_has_cells x b g c : shaped x b g c -> has_cells x = nonempty c.
Proof. intros (E & N & _). unfold has_cells. rewrite E, N. cbn [length]. rewrite app_length. destruct c; cbn [length nonempty]; lia. Qed.
Lemma shaped_cdims x b g c : shaped x b g c -> cdims x = Ok c.
Proof. intro H. unfold cdims. rewrite (shaped_has_cells x b g c H). destruct c as [|c0 c]; [reflexivity|]. destruct H as (E & N & _). rewrite E, N. apply chunk_end. Qed.
Lemma shaped_str x b g c : shaped x b g c -> exists s gs cs, vstr (bv x) = s :: gs ++ cs /\ length gs = length g /\ length cs = length c.
Proof.
  intros (E & N & L & _). rewrite E in L. cbn [length] in L. rewrite app_length in L. destruct (vstr (bv x)) as [|s t]; [discriminate|]. exists s, (firstn (length g) t), (skipn (length g) t). rewrite firstn_skipn. cbn in L.
  split; [reflexivity|]. split; [rewrite firstn_length; lia|rewrite skipn_length; lia].
Qed.

Lemma fits_unique {A} (t : A) l r r' : fits t l r -> fits t l r' -> r = r'.
Proof. intros [I F] [I' F']. destruct (F r' I') as [->| ->]; [|reflexivity]. destruct (F' r I) as [->| ->]; reflexivity. Qed.
Lemma fits_perm {A} (t : A) l l' r : Permutation l l' -> fits t l r -> fits t l' r.
Proof. intros P [I F]. split; [eapply Permutation_in; eassumption|]. intros a Ia. apply F. eapply Permutation_in; [apply Permutation_sym; eassumption|assumption]. Qed.
Lemma decides_ok {A} (t : A) l r : fits t l r -> decides t l (Ok r).
Proof. intro F. split; [|split; [discriminate|intro N; exfalso; eauto]]. intro r'. split; [now intros [= <-]|]. intro F'. f_equal. eapply fits_unique; eassumption. Qed.
Lemma decides_throw {A} (t : A) l : (forall r, ~ fits t l r) -> decides t l Throw.
Proof. intro N. split; [intro r; split; [discriminate|intro F; exfalso; eapply N; eassumption]|]. split; [intros _ [r F]; eapply N; eassumption|reflexivity]. Qed.
Ltac fin := split; [cbn; tauto || lia|cbn; intros ? [<-|[<-|H]]; try tauto; repeat (destruct H as [<-|H]; [tauto || lia|]); tauto].
Lemma batch2_ok bx by_ : decides 1 [bx; by_] (if bx =? by_ then Ok bx else if bx =? 1 then Ok by_ else if by_ =? 1 then Ok bx else Throw).
Proof.
  destruct (bx =? by_) eqn:E1; [apply decides_ok; split; [cbn; lia|cbn; lia]|]. destruct (bx =? 1) eqn:E2; [apply decides_ok; split; cbn; lia|]. destruct (by_ =? 1) eqn:E3; [apply decides_ok; split; cbn; lia|].
  apply decides_throw. intros r [I F]. cbn in I, F. assert (A := F bx). assert (B := F by_). lia.
Qed.
Lemma batch3_ok x y z bx by_ bz : getb x = Ok bx -> getb y = Ok by_ -> getb z = Ok bz -> 0 < bx -> 0 < by_ -> 0 < bz -> decides 1 [bx; by_; bz] (dominant_batch3 x y z).
Proof.
  intros Ex Ey Ez Hx Hy Hz. unfold dominant_batch3. rewrite Ex, Ey, Ez. cbn [bind]. replace ((0 <? bx) && (0 <? by_) && (0 <? bz)) with true by lia. cbn [assrt]. cbv zeta.
  assert (T : forall c r, (c = true -> fits 1 [bx; by_; bz] r) -> (c = false -> forall r, ~ fits 1 [bx; by_; bz] r) -> decides 1 [bx; by_; bz] (assrt c (Ok r))).
  { intros c r H1 H2. destruct c; cbn [assrt]; [apply decides_ok; auto|apply decides_throw; auto]. }
  repeat match goal with |- context [if ?c then _ else _] => destruct c eqn:? end;
  first [apply decides_ok; split; cbn; nia
        |apply T; [intros; split; cbn; lia|intros Hc r [I F]; cbn in I, F; assert (A := F bx); assert (B := F by_); assert (C := F bz); lia]].
Qed.
Lemma batch4_ok x y z w bx by_ bz bw : getb x = Ok bx -> getb y = Ok by_ -> getb z = Ok bz -> getb w = Ok bw -> 0 < bx -> 0 < by_ -> 0 < bz -> 0 < bw -> decides 1 [bx; by_; bz; bw] (dominant_batch4 x y z w).
Proof.
  intros Ex Ey Ez Ew Hx Hy Hz Hw. unfold dominant_batch4. rewrite Ex, Ey, Ez, Ew. cbn [bind]. replace (_ && _) with true by lia. cbn [assrt]. cbv zeta.
  set (B := if 1 <? bw then bw else _).
  assert (HB : In B [bx; by_; bz; bw]) by (subst B; cbn; destruct (1 <? bw) eqn:?, (1 <? bz) eqn:?, (1 <? by_) eqn:?, (1 <? bx) eqn:?; lia).
  assert (HL : forall r, fits 1 [bx; by_; bz; bw] r -> r = B).
  { intros r [I F]. cbn in I, F. assert (A1 := F bx). assert (A2 := F by_). assert (A3 := F bz). assert (A4 := F bw). subst B. destruct (1 <? bw) eqn:?, (1 <? bz) eqn:?, (1 <? by_) eqn:?, (1 <? bx) eqn:?; lia. }
  clearbody B. unfold assrt. cbn in HB.
  assert (K : forall v, In v [bx; by_; bz; bw] -> (v =? B) || (v =? 1) = false -> decides 1 [bx; by_; bz; bw] Throw).
  { intros v Iv Ev. apply decides_throw. intros r F. assert (r = B) by now apply HL. subst r. destruct F as [_ F]. specialize (F v Iv). lia. }
  destruct ((bx =? B) || (bx =? 1)) eqn:E1; [|eapply K; [|exact E1]; cbn; tauto]. destruct ((by_ =? B) || (by_ =? 1)) eqn:E2; [|eapply K; [|exact E2]; cbn; tauto].
  destruct ((bz =? B) || (bz =? 1)) eqn:E3; [|eapply K; [|exact E3]; cbn; tauto]. destruct ((bw =? B) || (bw =? 1)) eqn:E4; [|eapply K; [|exact E4]; cbn; tauto].
  apply decides_ok. split; cbn; lia.
Qed.
(* the same for shapes *)
Lemma two_ok (a b : list Z) : decides [] [a; b] (if shape_eqb a b then Ok a else if negb (nonempty a) then Ok b else if negb (nonempty b) then Ok a else Throw).
Proof.
  destruct (shape_eqb_spec a b) as [->|N]; [apply decides_ok; split; cbn; intuition (subst; auto)|]. destruct a as [|p a]; [apply decides_ok; split; cbn; intuition (subst; auto)|]. destruct b as [|q b]; [apply decides_ok; split; cbn; intuition (subst; auto)|].
  cbn [negb nonempty]. apply decides_throw. intros r [I F]. cbn in I, F. destruct (F (p :: a) ltac:(tauto)) as [D|D]; [discriminate|]. destruct (F (q :: b) ltac:(tauto)) as [D'|D']; [discriminate|]. congruence.
Qed.
Lemma gdims3_is_2 x y z bx gx cx by_ gy cy : shaped x bx gx cx -> shaped y by_ gy cy -> dominant_gdims3 x y z = dominant_gdims2 x y.
Proof.
  intros Hx Hy. unfold dominant_gdims3, dominant_gdims2. rewrite (shaped_gdims _ _ _ _ Hx), (shaped_gdims _ _ _ _ Hy), (shaped_has_grid _ _ _ _ Hx), (shaped_has_grid _ _ _ _ Hy). cbn [bind]. cbv zeta.
  destruct gx as [|p gx], gy as [|q gy]; cbn [nonempty Z.b2z negb]; cbn [shape_eqb Z.add Z.eqb Pos.add Pos.eqb]; try reflexivity; cbn [assrt]; try reflexivity.
  - rewrite Z.eqb_refl, shape_eqb_refl. reflexivity.
  - destruct ((p =? q) && shape_eqb gx gy); reflexivity.
Qed.
Lemma gdims4_is x y z w bx gx cx by_ gy cy bw gw cw : shaped x bx gx cx -> shaped y by_ gy cy -> shaped w bw gw cw -> decides [] [gx; gy; gw] (dominant_gdims4 x y z w).
Proof.
  intros Hx Hy Hw. unfold dominant_gdims4. rewrite (shaped_gdims _ _ _ _ Hx), (shaped_gdims _ _ _ _ Hy), (shaped_gdims _ _ _ _ Hw). cbn [bind]. cbv zeta.
  set (r := if nonempty gw then gw else _).
  assert (Hr : In r [gx; gy; gw]) by (subst r; destruct gw, gy, gx; cbn; auto).
  assert (HL : forall s, fits [] [gx; gy; gw] s -> s = r).
  { intros s [I F]. cbn in I, F. assert (A1 := F gx). assert (A2 := F gy). assert (A3 := F gw). subst r. destruct gw as [|w0 gw]; cbn [nonempty]; [|destruct A3 as [D|D]; [tauto|discriminate|congruence]].
    destruct gy as [|y0 gy]; cbn [nonempty]; [|destruct A2 as [D|D]; [tauto|discriminate|congruence]]. destruct gx as [|x0 gx]; cbn [nonempty]; [destruct I as [I|[I|[I|[]]]]; congruence|]. destruct A1 as [D|D]; [tauto|discriminate|congruence]. }
  clearbody r.
  assert (K : forall v, In v [gx; gy; gw] -> negb (nonempty v) || shape_eqb v r = false -> decides [] [gx; gy; gw] Throw).
  { intros v Iv Ev. apply decides_throw. intros s F. assert (s = r) by now apply HL. subst s. destruct F as [_ F]. specialize (F v Iv). destruct F as [->| ->]; [discriminate|]. rewrite shape_eqb_refl, orb_true_r in Ev. discriminate. }
  assert (C : forall v, negb (nonempty v) || shape_eqb v r = true -> v = [] \/ v = r).
  { intros v H. destruct v; [auto|]. cbn [negb nonempty orb] in H. destruct (shape_eqb_spec (z0 :: v) r); [auto|discriminate]. }
  unfold assrt. destruct (negb (nonempty gx) || shape_eqb gx r) eqn:E1; [|eapply K; [|exact E1]; cbn; tauto]. destruct (negb (nonempty gy) || shape_eqb gy r) eqn:E2; [|eapply K; [|exact E2]; cbn; tauto].
  destruct (negb (nonempty gw) || shape_eqb gw r) eqn:E3; [|eapply K; [|exact E3]; cbn; tauto]. apply decides_ok. split; [assumption|]. cbn. intros a [<-|[<-|[<-|[]]]]; auto.
Qed.
