From Verif Require Import Base BaseFacts Model_Index Model_View Model_Tensor Model_Ops Spec_Index Spec_View Spec_Tensor Spec_Ops
  Proofs_Axes Proofs_Index Proofs_View Proofs_View2 Proofs_Tensor Proofs_Tensor2 Proofs_Tensor3 Proofs_Ops Model_BG Spec_BG Model_BGprod Model_BGpack Proofs_BG Spec_BGpack.
Require Import Sorting.Sorted.
Local Open Scope Z_scope.

(* ---- the map ---- *)
Lemma has_find p k x : has p k x <-> pfind k (parts p) = Some x.
Proof. unfold has, p_get. destruct (pfind k (parts p)); split; congruence. Qed.
Lemma has_fun p k x y : has p k x -> has p k y -> x = y. Proof. unfold has. congruence. Qed.
Lemma find_in l k x : pfind k l = Some x -> In (k, x) l.
Proof. induction l as [|[j y] l IH]; cbn; [discriminate|]. destruct (Z.eqb_spec j k); [intros [= <-]; left; congruence|auto]. Qed.
Lemma ascending_cons j y l : ascending ((j, y) :: l) <-> ascending l /\ forall k x, In (k, x) l -> j < k.
Proof.
  unfold ascending. cbn. split.
  - intro H. inversion H as [|? ? A B]; subst. split; [exact A|]. intros k x Hin. rewrite Forall_forall in B. apply B. now apply (in_map fst) in Hin.
  - intros [A B]. constructor; [exact A|]. rewrite Forall_forall. intros k Hk. apply in_map_iff in Hk. destruct Hk as ([k' x] & <- & Hin). now apply (B k' x).
Qed.
Lemma in_find l k x : ascending l -> In (k, x) l -> pfind k l = Some x.
Proof.
  induction l as [|[j y] l IH]; cbn; [easy|]. rewrite ascending_cons. intros [A B] [[= <- <-]|H]; [now rewrite Z.eqb_refl|].
  destruct (Z.eqb_spec j k) as [->|]; [|auto]. specialize (B k x H). lia.
Qed.
Lemma in_has p k x : ascending (parts p) -> In (k, x) (parts p) -> has p k x. Proof. intros A H. apply has_find. now apply in_find. Qed.
Lemma has_in p k x : has p k x -> In (k, x) (parts p). Proof. intro H. apply find_in. now apply has_find. Qed.
Lemma find_none l k x : pfind k l = None -> ~ In (k, x) l.
Proof. induction l as [|[j y] l IH]; cbn; [auto|]. destruct (Z.eqb_spec j k); [discriminate|]. intros H [[= ? ?]|H']; [congruence|now apply IH]. Qed.
Lemma find_below l k : (forall j x, In (j, x) l -> k < j) -> pfind k l = None.
Proof. intro H. destruct (pfind k l) as [x|] eqn:E; [|reflexivity]. apply find_in in E. specialize (H k x E). lia. Qed.
Lemma find_put l : forall k j x, ascending l -> pfind k (pput j x l) = if j =? k then match pfind k l with Some y => Some y | None => Some x end else pfind k l.
Proof.
  induction l as [|[i y] l IH]; intros k j x A; cbn.
  - now destruct (j =? k).
  - apply ascending_cons in A. destruct A as [A B]. destruct (Z.ltb_spec j i); cbn.
    + destruct (Z.eqb_spec j k) as [->|]; [|reflexivity]. destruct (Z.eqb_spec i k); [lia|]. rewrite find_below; [reflexivity|]. intros c u Hc. specialize (B c u Hc). lia.
    + destruct (Z.eqb_spec i j) as [->|]; cbn.
      * destruct (Z.eqb_spec j k) as [->|]; [reflexivity|]. reflexivity.
      * destruct (Z.eqb_spec i k) as [->|]; [destruct (Z.eqb_spec j k); [lia|reflexivity]|]. now apply IH.
Qed.
Lemma in_put l : forall j x k y, In (k, y) (pput j x l) -> (k = j /\ y = x) \/ In (k, y) l.
Proof.
  induction l as [|[i z] l IH]; intros j x k y; cbn; [intros [[= <- <-]|[]]; auto|]. destruct (j <? i); cbn; [intros [[= <- <-]|H]; auto|].
  destruct (i =? j); cbn; [auto|]. intros [H|H]; [auto|]. destruct (IH _ _ _ _ H); auto.
Qed.
Lemma put_ascending l : forall j x, ascending l -> ascending (pput j x l).
Proof.
  induction l as [|[i z] l IH]; intros j x A; cbn.
  - apply ascending_cons. split; [exact A|easy].
  - pose proof A as A0. apply ascending_cons in A. destruct A as [A B]. destruct (Z.ltb_spec j i).
    + apply ascending_cons. split; [exact A0|]. cbn. intros k y [[= <- <-]|H']; [lia|]. specialize (B k y H'). lia.
    + destruct (Z.eqb_spec i j); [exact A0|]. apply ascending_cons. split; [now apply IH|]. intros k y H'. apply in_put in H'. destruct H' as [[-> _]|H']; [lia|now apply (B k y)].
Qed.
Lemma find_del l k j : pfind k (pdel j l) = if j =? k then None else pfind k l.
Proof.
  induction l as [|[i y] l IH]; [now destruct (j =? k)|]. unfold pdel in *. cbn. destruct (Z.eqb_spec i j) as [->|]; cbn; rewrite IH.
  - destruct (Z.eqb_spec j k); reflexivity.
  - destruct (Z.eqb_spec i k) as [->|]; [|reflexivity]. destruct (Z.eqb_spec j k); [congruence|reflexivity].
Qed.
Lemma del_ascending l j : ascending l -> ascending (pdel j l).
Proof.
  induction l as [|[i y] l IH]; cbn; [auto|]. rewrite ascending_cons. intros [A B]. destruct (i =? j); cbn; [auto|].
  apply ascending_cons. split; [auto|]. intros k x H. apply filter_In in H. now apply (B k x).
Qed.
Lemma ascending_nodup l : ascending l -> NoDup (map fst l).
Proof.
  induction l as [|[j y] l IH]; [constructor|]. rewrite ascending_cons. intros [A B]. cbn. constructor; [|auto].
  intro H. apply in_map_iff in H. destruct H as ([k x] & E & H). cbn in E. subst. specialize (B j x H). lia.
Qed.
Lemma keys_in l k : ascending l -> In k (map fst l) <-> exists x, pfind k l = Some x.
Proof.
  intro A. rewrite in_map_iff. split.
  - intros ([j x] & <- & H). exists x. now apply in_find.
  - intros (x & H). exists (k, x). split; [reflexivity|now apply find_in].
Qed.
Lemma same_size l l' : ascending l -> ascending l' -> (forall k, (exists x, pfind k l = Some x) <-> (exists x, pfind k l' = Some x)) -> length l = length l'.
Proof.
  intros A A' H. rewrite <- (map_length fst l), <- (map_length fst l'). apply Nat.le_antisymm; apply NoDup_incl_length; try now apply ascending_nodup.
  - intros k Hk. apply keys_in; [assumption|]. apply H. now apply keys_in.
  - intros k Hk. apply keys_in; [assumption|]. apply H. now apply keys_in.
Qed.

(* ---- histories ---- *)
Lemma insert_inv k x p q : p_insert k x p = Ok q -> exists b g, getb x = Ok b /\ gdims x = Ok g /\ pb q = b /\ pg q = g /\ (psize p <> 0 -> pb p = b /\ pg p = g) /\ parts q = pput k x (parts p).
Proof.
  unfold p_insert. destruct (getb x) as [b| |]; try discriminate. destruct (gdims x) as [g| |]; try discriminate. cbn [bind]. intro H.
  destruct (psize p =? 0) eqn:E0.
  - cbn in H. rewrite Z.eqb_refl, shape_eqb_refl in H. cbn in H. injection H as <-. exists b, g. cbn. repeat split; auto; apply Z.eqb_eq in E0; lia.
  - apply Z.eqb_neq in E0. destruct (Z.eqb_spec b (pb p)); [|discriminate]. destruct (shape_eqb_spec g (pg p)); [|discriminate]. cbn in H. injection H as <-. exists b, g. cbn. repeat split; auto; congruence.
Qed.
Definition fitting (x : bg) (b : Z) (g : list Z) : Prop := getb x = Ok b /\ gdims x = Ok g.
Lemma run_spec h : forall p q, ascending (parts p) -> (forall k x, has p k x -> fitting x (pb p) (pg p)) -> p_run h p = Ok q ->
  ascending (parts q) /\ (forall k x, has q k x -> fitting x (pb q) (pg q)) /\ forall k, pfind k (parts q) = left_at k (pfind k (parts p)) h.
Proof.
  induction h as [|o h IH]; intros p q A S H.
  - cbn in H. injection H as <-. auto.
  - unfold p_run in H. cbn [foldM] in H. destruct (p_op o p) as [p1| |] eqn:E; try discriminate. cbn [bind] in H. fold (p_run h p1) in H.
    destruct o as [j x|j]; cbn [p_op] in E.
    + destruct (insert_inv _ _ _ _ E) as (b & g & Eb & Eg & <- & <- & Hold & Ep).
      assert (A1 : ascending (parts p1)) by (rewrite Ep; now apply put_ascending).
      assert (S1 : forall k y, has p1 k y -> fitting y (pb p1) (pg p1)).
      { intros k y Hy. apply has_find in Hy. rewrite Ep in Hy. apply find_in, in_put in Hy. destruct Hy as [[-> ->]|Hy]; [now split|].
        destruct (Z.eq_dec (psize p) 0) as [E0|E0]; [unfold psize in E0; destruct (parts p); [easy|discriminate E0]|].
        destruct (Hold E0) as [<- <-]. apply (S k). now apply in_has. }
      destruct (IH p1 q A1 S1 H) as (B1 & B2 & B3). split; [exact B1|]. split; [exact B2|]. intro k. rewrite B3, Ep, find_put by assumption. reflexivity.
    + injection E as <-. assert (A1 : ascending (parts (p_remove j p))) by now apply del_ascending.
      assert (S1 : forall k y, has (p_remove j p) k y -> fitting y (pb p) (pg p)).
      { intros k y Hy. apply has_find in Hy. cbn [parts p_remove] in Hy. rewrite find_del in Hy. destruct (j =? k); [discriminate|]. apply (S k). now apply has_find. }
      destruct (IH _ q A1 S1 H) as (B1 & B2 & B3). split; [exact B1|]. split; [exact B2|]. intro k. rewrite B3. cbn [parts p_remove]. now rewrite find_del.
Qed.

(* ---- writing part after part ---- *)
Section Ring.
Context {R : cring}.
Notation memR := (mem (car R)).
Add Ring RrPack : (cth R).
Section Fold.
Variable step : view -> view -> memR -> res memR.
Variable F : R -> R -> R.
Variable P : view -> view -> Prop.
Hypothesis P_dims : forall r x, P r x -> vdims x = vdims r.
Hypothesis step_ok : forall r x m, P r x -> readable m r -> readable m x -> exists m', step r x m = Ok m' /\
  (forall ix, in_range ix (vdims r) -> elem m' r ix = Some (F (elem0 m r ix) (elem0 m x ix))) /\ untouched m m' r.
Lemma pairs_ok : forall (l : list (view * view)) m,
  (forall q, In q l -> P (fst q) (snd q) /\ readable m (fst q) /\ readable m (snd q)) ->
  ForallOrdPairs (fun q q' => disjoint_views (fst q) (fst q') /\ disjoint_views (fst q) (snd q')) l ->
  exists m', foldM (fun q m => step (fst q) (snd q) m) l m = Ok m' /\
    (forall q ix, In q l -> in_range ix (vdims (fst q)) -> elem m' (fst q) ix = Some (F (elem0 m (fst q) ix) (elem0 m (snd q) ix))) /\
    (forall b c, (forall q ix, In q l -> in_range ix (vdims (fst q)) -> vaddr (fst q) ix <> Ok (b, c)) -> m' b c = m b c).
Proof.
  induction l as [|[r x] l IH]; intros m H D.
  - exists m. cbn. repeat split; easy.
  - inversion D as [|? ? D1 D2]; subst. rewrite Forall_forall in D1. destruct (H (r, x) (or_introl eq_refl)) as (Hp & Rr & Rx). cbn [fst snd] in *.
    destruct (step_ok r x m Hp Rr Rx) as (m1 & E & A & U). cbn [foldM fst snd]. rewrite E. cbn [bind].
    assert (K : forall q, In q l -> (forall ix, in_range ix (vdims (fst q)) -> elem m1 (fst q) ix = elem m (fst q) ix) /\ (forall ix, in_range ix (vdims (snd q)) -> elem m1 (snd q) ix = elem m (snd q) ix)).
    { intros q Hq. destruct (D1 q Hq) as [Da Db]. split; intros ix Hix; now apply (disjoint_keep r). }
    destruct (IH m1) as (m' & E' & A' & U'); [|exact D2|].
    { intros q Hq. destruct (K q Hq) as [K1 K2]. destruct (H q (or_intror Hq)) as (Pq & R1 & R2). split; [exact Pq|].
      split; intros ix Hix; [rewrite K1 by assumption; now apply R1|rewrite K2 by assumption; now apply R2]. }
    exists m'. split; [exact E'|]. split.
    + intros q ix [<-|Hq] Hix; cbn [fst snd] in *.
      * rewrite <- A by assumption. destruct (vaddr r ix) as [[b c]| |] eqn:Ea.
        -- unfold elem. rewrite Ea. apply U'. intros q jx Hq Hjx Eq. destruct (D1 q Hq) as [Da _]. apply (Da ix jx Hix Hjx). congruence.
        -- unfold elem. now rewrite Ea.
        -- unfold elem. now rewrite Ea.
      * rewrite A' by assumption. destruct (K q Hq) as [K1 K2]. unfold elem0. rewrite K1 by assumption. f_equal. f_equal.
        destruct (H q (or_intror Hq)) as (Pq & _). rewrite K2; [reflexivity|]. now rewrite (P_dims _ _ Pq).
    + intros b c Hbc. rewrite U'; [apply U|].
      * intros ix Hix. apply (Hbc (r, x) ix (or_introl eq_refl) Hix).
      * intros q ix Hq Hix. apply (Hbc q ix (or_intror Hq) Hix).
Qed.
Lemma pairs_ordered (l : list (Z * bg)) (g : Z * bg -> bg) : ascending l ->
  (forall e e', In e l -> In e' l -> fst e <> fst e' -> disjoint_views (bv (snd e)) (bv (snd e')) /\ disjoint_views (bv (snd e)) (bv (g e'))) ->
  ForallOrdPairs (fun q q' : view * view => disjoint_views (fst q) (fst q') /\ disjoint_views (fst q) (snd q')) (map (fun e => (bv (snd e), bv (g e))) l).
Proof.
  induction l as [|[k x] l IH]; intros A H; cbn; [constructor|]. apply ascending_cons in A. destruct A as [A B]. constructor.
  - rewrite Forall_forall. intros q Hq. apply in_map_iff in Hq. destruct Hq as ([j y] & <- & Hj). cbn [fst snd].
    apply (H (k, x) (j, y)); [now left|now right|]. cbn. specialize (B j y Hj). lia.
  - apply IH; [exact A|]. intros e e' He He'. apply H; now right.
Qed.
Lemma pack_fold (look : Z -> res bg) p x m : ascending (parts p) -> (forall k y, has x k y -> look k = Ok y) -> (forall k a, has p k a -> exists b, has x k b) ->
  (forall k a b, has p k a -> has x k b -> P (bv a) (bv b) /\ readable m (bv a) /\ readable m (bv b)) ->
  (forall k a j b, has p k a -> has p j b -> k <> j -> disjoint_views (bv a) (bv b)) ->
  (forall k a j b, has p k a -> has x j b -> k <> j -> disjoint_views (bv a) (bv b)) ->
  exists m', foldM (fun e m => do y <- look (fst e); step (bv (snd e)) (bv y) m) (parts p) m = Ok m' /\ turns F p x m m'.
Proof.
  intros A L K Hp D1 D2. set (g := fun e : Z * bg => match p_get (fst e) x with Ok y => y | _ => snd e end).
  assert (G : forall e, In e (parts p) -> has p (fst e) (snd e) /\ has x (fst e) (g e)).
  { intros [k a] He. cbn [fst snd]. assert (Hk : has p k a) by now apply in_has. split; [exact Hk|]. destruct (K k a Hk) as (b & Hb). unfold g. cbn. unfold has in Hb |- *. now rewrite Hb. }
  destruct (pairs_ok (map (fun e => (bv (snd e), bv (g e))) (parts p)) m) as (m' & E & B & U).
  { intros q Hq. apply in_map_iff in Hq. destruct Hq as (e & <- & He). cbn [fst snd]. destruct (G e He). now apply (Hp (fst e)). }
  { apply pairs_ordered; [exact A|]. intros e e' He He' Hne. destruct (G e He), (G e' He'). split; [now apply (D1 (fst e) _ (fst e'))|now apply (D2 (fst e) _ (fst e'))]. }
  exists m'. split.
  - rewrite <- E, foldM_map. apply foldM_ext. intros e s He. cbn [fst snd]. destruct (G e He) as [_ He2]. rewrite (L _ _ He2). reflexivity.
  - split.
    + intros k a b ix Ha Hb Hix. assert (He := has_in _ _ _ Ha). destruct (G _ He) as [_ Hg]. cbn [fst] in Hg. assert (Eg : g (k, a) = b) by apply (has_fun _ _ _ _ Hg Hb).
      assert (Hq : In (bv a, bv b) (map (fun e => (bv (snd e), bv (g e))) (parts p))) by (apply in_map_iff; exists (k, a); cbn [snd]; rewrite Eg; auto).
      exact (B _ ix Hq Hix).
    + intros b c Hbc. apply U. intros q ix Hq Hix. apply in_map_iff in Hq. destruct Hq as (e & <- & He). cbn [fst] in *. destruct (G e He) as [Ha _]. now apply (Hbc (fst e) (snd e)).
Qed.
End Fold.
Lemma foldM_stuck {S A} (f : A -> S -> res S) a l : In a l -> (forall s s', f a s <> Ok s') -> forall s s', foldM f l s <> Ok s'.
Proof.
  induction l as [|b l IH]; [easy|]. intros [->|H] Hf s s'; cbn.
  - destruct (f a s) as [s1| |] eqn:E; try discriminate. now apply Hf in E.
  - destruct (f b s) as [s1| |]; try discriminate. cbn. now apply IH.
Qed.
Definition can (r x : view) : Prop := plain_layout r /\ vwf x /\ vdims x = vdims r /\ distinct_cells r /\ no_clobber r x.
Lemma can_dims r x : can r x -> vdims x = vdims r. Proof. now intros (_ & _ & H & _). Qed.
Lemma add_step r x (m : memR) : can r x -> readable m r -> readable m x -> exists m', tv_add r x m = Ok m' /\
  (forall ix, in_range ix (vdims r) -> elem m' r ix = Some (cadd (elem0 m r ix) (elem0 m x ix))) /\ untouched m m' r.
Proof.
  intros (A & B & C & D & E) Rr Rx. destruct (add_ok r x m) as (m' & Em & H & U); auto. exists m'. split; [exact Em|]. split; [|exact U].
  intros ix Hix. apply H; [exact Hix|now apply readable_elem|]. apply readable_elem; [exact Rx|now rewrite C].
Qed.
Lemma sub_step r x (m : memR) : can r x -> readable m r -> readable m x -> exists m', tv_sub r x m = Ok m' /\
  (forall ix, in_range ix (vdims r) -> elem m' r ix = Some (csub (elem0 m r ix) (elem0 m x ix))) /\ untouched m m' r.
Proof.
  intros (A & B & C & D & E) Rr Rx. unfold tv_sub. rewrite asz_refl by exact C. cbn [assrt].
  destruct (reg_or_each_ok f_sub r [x] m) as (m' & Em & W); auto. { split; apply A. }
  exists m'. split; [exact Em|]. split; [|apply W].
  intros ix Hix. apply (ew1 _ _ x m m' W); [exact Hix|now apply readable_elem|]. apply readable_elem; [exact Rx|now rewrite C].
Qed.
Lemma assign_step r x (m : memR) : can r x -> readable m r -> readable m x -> exists m', tv_assign r x m = Ok m' /\
  (forall ix, in_range ix (vdims r) -> elem m' r ix = Some (elem0 m x ix)) /\ untouched m m' r.
Proof.
  intros (A & B & C & D & E) Rr Rx. destruct (assign_ok r x m) as (m' & Em & H & U); auto. exists m'. split; [exact Em|]. split; [|exact U].
  intros ix Hix. rewrite H by exact Hix. apply readable_elem; [exact Rx|now rewrite C].
Qed.

(* ---- new parts ---- *)
Fixpoint renew (nb : Z) (l : list (Z * bg)) : list (Z * bg) :=
  match l with [] => [] | (k, x) :: l => (k, BG (fresh_view nb (vdims (bv x))) (ng x)) :: renew (nb + 1) l end.
Lemma renew_find l : forall nb k, (pfind k l = None -> pfind k (renew nb l) = None) /\
  (forall x, pfind k l = Some x -> exists i, nb <= i /\ pfind k (renew nb l) = Some (BG (fresh_view i (vdims (bv x))) (ng x))).
Proof.
  induction l as [|[j y] l IH]; intros nb k; cbn; [split; [auto|discriminate]|]. destruct (Z.eqb_spec j k) as [->|].
  - split; [discriminate|]. intros x [= <-]. exists nb. split; [lia|reflexivity].
  - destruct (IH (nb + 1) k) as [H1 H2]. split; [exact H1|]. intros x Hx. destruct (H2 x Hx) as (i & Hi & E). exists i. split; [lia|exact E].
Qed.
Lemma renew_apart l : forall nb k j a b, pfind k (renew nb l) = Some a -> pfind j (renew nb l) = Some b -> k <> j -> vblk (bv a) <> vblk (bv b).
Proof.
  assert (G : forall l nb k a, pfind k (renew nb l) = Some a -> nb <= vblk (bv a)).
  { induction l0 as [|[i y] l0 IH]; intros nb k a; cbn; [discriminate|]. destruct (i =? k); [intros [= <-]; cbn; lia|]. intro H. apply IH in H. lia. }
  induction l as [|[i y] l IH]; intros nb k j a b; cbn; [discriminate|]. intros Ha Hb Hne. destruct (Z.eqb_spec i k) as [->|].
  - destruct (Z.eqb_spec k j); [congruence|]. injection Ha as <-. apply G in Hb. cbn. lia.
  - destruct (Z.eqb_spec i j) as [->|]; [injection Hb as <-; apply G in Ha; cbn; lia|]. now apply (IH (nb + 1) k j).
Qed.
Lemma renew_keys l : forall nb, map fst (renew nb l) = map fst l.
Proof. induction l as [|[k x] l IH]; intros nb; cbn; [reflexivity|]. now rewrite IH. Qed.
Section New.
Variable f : Z -> bg -> memR -> res (bg * memR).
Variable G : R -> R.
Definition fresh_spec : Prop := forall b x m, vwf (bv x) -> readable m (bv x) -> Forall (fun s => s < INT_MAX) (strides_of 1 (vdims (bv x))) -> ng x <= ndims (bv x) - 1 -> (forall a, m b a = None) ->
  exists m', f b x m = Ok (BG (fresh_view b (vdims (bv x))) (ng x), m') /\
    (forall ix, in_range ix (vdims (bv x)) -> elem m' (fresh_view b (vdims (bv x))) ix = Some (G (elem0 m (bv x) ix))) /\ (forall b' a, b' <> b -> m' b' a = m b' a).
Hypothesis f_ok : fresh_spec.
Lemma new_parts_ok l : forall nb m, (forall k x, In (k, x) l -> vwf (bv x) /\ readable m (bv x) /\ Forall (fun s => s < INT_MAX) (strides_of 1 (vdims (bv x))) /\ ng x <= ndims (bv x) - 1) ->
  free_from nb m -> exists m', new_parts f nb l m = Ok (renew nb l, m') /\
    (forall k x y ix, pfind k l = Some x -> pfind k (renew nb l) = Some y -> in_range ix (vdims (bv x)) -> elem m' (bv y) ix = Some (G (elem0 m (bv x) ix))) /\
    (forall b c, b < nb -> m' b c = m b c).
Proof.
  induction l as [|[k x] l IH]; intros nb m H Hf; cbn [new_parts renew].
  - exists m. repeat split; easy.
  - destruct (H k x (or_introl eq_refl)) as (W & Rx & Hs & Hn). destruct (f_ok nb x m W Rx Hs Hn) as (m1 & E & A & O); [intro a; apply Hf; lia|].
    rewrite E. cbn [bind].
    assert (K : forall j y, In (j, y) l -> forall ix, in_range ix (vdims (bv y)) -> elem m1 (bv y) ix = elem m (bv y) ix).
    { intros j y Hy ix Hix. destruct (H j y (or_intror Hy)) as (Wy & Ry & _). apply (others_elem nb m m1); auto. intro a. apply Hf. lia. }
    destruct (IH (nb + 1) m1) as (m' & E' & A' & O').
    { intros j y Hy. destruct (H j y (or_intror Hy)) as (Wy & Ry & R2). repeat split; try apply R2; try apply Wy. intros ix Hix. rewrite (K j y Hy) by exact Hix. now apply Ry. }
    { intros b a Hb. rewrite O by lia. apply Hf. lia. }
    rewrite E'. cbn [bind]. exists m'. split; [reflexivity|]. split.
    + intros j y z ix. cbn [pfind]. destruct (Z.eqb_spec k j) as [->|].
      * intros [= <-] [= <-] Hix. cbn [bv]. rewrite <- A by exact Hix. destruct (fresh_inside nb (vdims (bv x)) (proj2 W)) as [Hin _]. destruct (Hin ix Hix) as (a & Ea & _).
        unfold elem. rewrite Ea. apply O'. lia.
      * intros Hy Hz Hix. rewrite (A' j y z ix Hy Hz Hix). unfold elem0. rewrite (K j y) by auto using find_in. reflexivity.
    + intros b c Hb. rewrite O' by lia. apply O. lia.
Qed.
(* the pack made of the new parts *)
Lemma new_pack p b g nb m : sound p -> legible m p -> small p -> free_from nb m -> exists m', new_parts f nb (parts p) m = Ok (renew nb (parts p), m') /\
  builds nb p (Pack b g (renew nb (parts p))) m m' /\
  (forall k x y ix, has p k x -> has (Pack b g (renew nb (parts p))) k y -> in_range ix (vdims (bv x)) -> elem m' (bv y) ix = Some (G (elem0 m (bv x) ix))).
Proof.
  intros [A S] L Hs Hf.
  assert (X : forall k x, has p k x -> vwf (bv x) /\ readable m (bv x) /\ Forall (fun s => s < INT_MAX) (strides_of 1 (vdims (bv x))) /\ ng x <= ndims (bv x) - 1).
  { intros k x Hk. destruct (S k x Hk) as (c & D & N & W). split; [exact W|]. split; [now apply (L k)|]. split; [now apply (Hs k)|].
    unfold ndims. rewrite D, N. cbn [length]. rewrite app_length. lia. }
  destruct (new_parts_ok (parts p) nb m) as (m' & E & B & O); [intros k x Hk; apply (X k x); now apply in_has|exact Hf|].
  exists m'. split; [exact E|]. set (r := Pack b g (renew nb (parts p))).
  assert (Fnd : forall k y, has r k y -> exists x i, has p k x /\ nb <= i /\ y = BG (fresh_view i (vdims (bv x))) (ng x)).
  { intros k y Hy. apply has_find in Hy. cbn [parts r] in Hy. destruct (renew_find (parts p) nb k) as [H1 H2]. destruct (pfind k (parts p)) as [x|] eqn:Ex; [|rewrite H1 in Hy by reflexivity; discriminate].
    destruct (H2 x eq_refl) as (i & Hi & Ei). exists x, i. split; [now apply has_find|]. split; [exact Hi|congruence]. }
  assert (Elm : forall k x y ix, has p k x -> has r k y -> in_range ix (vdims (bv x)) -> elem m' (bv y) ix = Some (G (elem0 m (bv x) ix))).
  { intros k x y ix Hx Hy Hix. apply (B k); [now apply has_find|now apply has_find in Hy|exact Hix]. }
  split; [|exact Elm]. split; [|split; [|split]].
  - split.
    + intro k. split.
      * intros (a & Ha). apply has_find in Ha. destruct (proj2 (renew_find (parts p) nb k) a Ha) as (i & _ & Ei). exists (BG (fresh_view i (vdims (bv a))) (ng a)). now apply has_find.
      * intros (y & Hy). destruct (Fnd k y Hy) as (x & i & Hx & _). now exists x.
    + intros k a y Ha Hy. destruct (Fnd k y Hy) as (x & i & Hx & _ & ->). rewrite (has_fun _ _ _ _ Ha Hx). now split.
  - split.
    + intros k y Hy. destruct (Fnd k y Hy) as (x & i & Hx & Hi & Ey). destruct (X k x Hx) as (W & _ & Hsm & _).
      split; [subst y; apply fresh_plain; [apply W|exact Hsm]|]. split; [subst y; apply fresh_distinct, W|]. intros ix Hix. rewrite (Elm k x y ix Hx Hy); [discriminate|]. subst y. exact Hix.
    + intros k y j z Hy Hz Hkj ix jx Hix Hjx Eq. apply (renew_apart (parts p) nb k j y z); try (now apply has_find in Hy); try (now apply has_find in Hz); try exact Hkj.
      destruct (Fnd k y Hy) as (x & i & Hx & _ & ->). destruct (Fnd j z Hz) as (x' & i' & Hx' & _ & ->). cbn [bv] in *.
      destruct (X k x Hx) as (W & _). destruct (X j x' Hx') as (W' & _).
      destruct (fresh_inside i (vdims (bv x)) (proj2 W)) as [Hin _]. destruct (Hin ix Hix) as (c & Ec & _).
      destruct (fresh_inside i' (vdims (bv x')) (proj2 W')) as [Hin' _]. destruct (Hin' jx Hjx) as (c' & Ec' & _). cbn. congruence.
  - intros k y Hy. destruct (Fnd k y Hy) as (x & i & _ & Hi & ->). exact Hi.
  - exact O.
Qed.
End New.
Lemma like_ok n v (m : memR) : n <= ndims v - 1 -> bg_like n (v, m) = Ok (BG v n, m).
Proof. intro H. unfold bg_like. cbn [fst snd]. now rewrite (proj2 (Z.leb_le _ _) H). Qed.
Lemma copy_spec : fresh_spec bg_copy (fun v => v).
Proof.
  intros b x m W Rx Hs Hn Hb. unfold bg_copy. destruct (copy_fresh c0 b (bv x) m W Rx Hs Hb) as (m' & E & A & O). rewrite E. cbn [bind]. rewrite like_ok by exact Hn.
  exists m'. split; [reflexivity|]. split; [|exact O]. intros ix Hix. rewrite A by exact Hix. now apply readable_elem.
Qed.
Lemma scale_spec c : fresh_spec (bg_scale c) (fun v => cmul c v).
Proof.
  intros b x m W Rx Hs Hn Hb. unfold bg_scale, op_times, zeros. destruct (addc_fresh b (bv x) c m W Rx Hb) as (m' & E & A & U). rewrite E. cbn [bind]. rewrite like_ok by exact Hn.
  exists m'. split; [reflexivity|]. split; [exact A|]. intros b' a Hne. rewrite U; [now apply alloc_other|].
  intros ix Hix Eq. apply vaddr_blk in Eq. cbn in Eq. congruence.
Qed.
Lemma renew_sound p nb : sound p -> sound (Pack (pb p) (pg p) (renew nb (parts p))).
Proof.
  intros [A S]. split; [unfold ascending; cbn [parts]; now rewrite renew_keys|]. intros k y Hy. apply has_find in Hy. cbn [parts pb pg] in *.
  destruct (renew_find (parts p) nb k) as [H1 H2]. destruct (pfind k (parts p)) as [x|] eqn:Ex; [|rewrite H1 in Hy by reflexivity; discriminate].
  destruct (H2 x eq_refl) as (i & Hi & Ei). destruct (S k x) as (c & D & N & W); [now apply has_find|]. exists c. assert (y = BG (fresh_view i (vdims (bv x))) (ng x)) as -> by congruence.
  repeat split; cbn; auto; [apply strides_of_length|apply W].
Qed.
End Ring.
